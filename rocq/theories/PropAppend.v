(** C85: sources put one after the other. *)
From Coq Require Import String Lia List.
From Verif Require Import SpecParser SpecBlock SpecFinal SpecAppend Nom ParserInlineFacts ParserBlock FinalFacts AppendFacts PropParser PropBlockSyntax PropFinal PropBlank.
Import ListNotations.
Open Scope list_scope.

Lemma begins_cut : forall p a, In p (map lit ["<"; "["; "```"; "~~~"]%string) -> line_begins p (a ++ [10%N; 10%N]) -> line_begins p a.
Proof.
  intros p a I (u & k & v & E & U). assert (P : exists q c, p = q ++ [c] /\ c <> 10%N).
  { destruct I as [<-|[<-|[<-|[<-|[]]]]]; [exists []|exists []|exists (lit "``")|exists (lit "~~")]; eexists; (split; [reflexivity|discriminate]). }
  destruct P as (q & c & -> & C). symmetry in E. rewrite !app_assoc in E. apply app_eq_app in E. destruct E as (l & [[X Y]|[X Y]]).
  - destruct l as [|x l].
    + rewrite app_nil_r in X. exists u, k, []. split; [|exact U]. rewrite app_nil_r, <- X, <- !app_assoc. reflexivity.
    + exfalso. destruct l as [|y l]; cbn [app] in Y; [injection Y as <- _|injection Y as <- <- Y].
      * apply app_inj_tail in X. destruct X as [_ X]. congruence.
      * symmetry in Y. apply app_eq_nil in Y. destruct Y as [-> _]. change [10%N; 10%N] with ([10%N] ++ [10%N]) in X. rewrite app_assoc in X. apply app_inj_tail in X. destruct X as [_ X]. congruence.
  - exists u, k, l. split; [|exact U]. rewrite X, <- !app_assoc. reflexivity.
Qed.
Lemma fence_cut : forall a, fence_line (a ++ [10%N; 10%N]) -> fence_line a.
Proof. intros a [H|H]; [left|right]; (apply begins_cut; [cbn; auto|exact H]). Qed.
Lemma snoc2 : forall (a p : str) c v, c <> 10%N -> a ++ [10%N; 10%N] = p ++ c :: v -> exists l, v = l ++ [10%N; 10%N] /\ a = p ++ c :: l.
Proof.
  intros a p c v N E. apply app_eq_app in E. destruct E as (l & [[-> Y]|[-> Y]]).
  - destruct l as [|d l]; cbn [app] in Y; [injection Y as Y _; elim (N Y)|]. injection Y as <- ->. now exists l.
  - exfalso. assert (I : In c (l ++ c :: v)) by (apply in_or_app; right; now left). rewrite <- Y in I. destruct I as [I|[I|[]]]; congruence.
Qed.
Lemma calm_cut : forall cfg a, (b_html_block cfg <> Ignore -> no_html a) ->
  (b_link_definition cfg <> Ignore \/ b_footnote_definition cfg <> Ignore -> labels_closed (b_footnote_definition cfg <> Ignore) a) -> calm cfg (a ++ [10%N; 10%N]).
Proof.
  intros cfg a H1 H2. split; intros O.
  - intros u k c v E U T. assert (N : c <> 10%N) by (intros ->; destruct T as [T|[T|[T|[T|[]]]]]; discriminate).
    replace (u ++ repeat 32%N k ++ ch "<" :: c :: v) with ((u ++ repeat 32%N k ++ [ch "<"]) ++ c :: v) in E by now rewrite <- !app_assoc.
    destruct (snoc2 _ _ _ _ N E) as (l & -> & ->). apply (H1 O u k c l); [now rewrite <- !app_assoc|exact U|exact T].
  - intros u k v E U. rewrite app_assoc in E. destruct (snoc2 _ _ (ch "[") _ ltac:(discriminate) E) as (l & -> & ->).
    destruct (H2 O u k l) as (w & z & -> & I1 & I2 & N); [now rewrite <- !app_assoc|exact U|]. exists w, (z ++ [10%N; 10%N]). split; [now rewrite <- app_assoc|].
    split; [exact I1|]. split; [exact I2|]. intros (y & Y). destruct z as [|d z]; [discriminate|]. injection Y as -> _. destruct N as [(p & q & Ez & Q & Np)|[Of (l & j & c & x & -> & Nl & Ez & Nc)]]; [now eexists| |].
    2: { right. split; [exact Of|]. exists l, j, c, (x ++ [10%N; 10%N]). split; [reflexivity|]. split; [exact Nl|]. split; [|exact Nc]. rewrite Ez. cbn [app]. now rewrite <- app_assoc. }
    left. exists p, (q ++ [10%N; 10%N]). rewrite Ez, <- app_assoc. split; [reflexivity|]. split; [|exact Np]. right. destruct Q as [-> | (y2 & ->)]; eexists; reflexivity.
Qed.

(** The blocks of the first source are not changed by what follows a blank
    line, provided no fence, HTML block or definition is left open and the
    second source does not continue a list. *)
Theorem C85_append_partial : forall cfg a b da db, custom_ok cfg -> custom_block cfg = None -> i_text cfg <> Ignore -> b_paragraph cfg <> Ignore ->
  (b_html_block cfg <> Ignore -> no_html a) ->
  (b_link_definition cfg <> Ignore \/ b_footnote_definition cfg <> Ignore -> labels_closed (b_footnote_definition cfg <> Ignore) a) ->
  (b_list cfg <> Ignore -> ~ indented b) ->
  fences_closed cfg (a ++ [10%N; 10%N]) ->
  parse_markdown cfg (a ++ [10%N; 10%N]) = Ok [] (Document da) ->
  parse_markdown cfg b = Ok [] (Document db) ->
  parse_markdown cfg (a ++ [10%N; 10%N] ++ b) = Ok [] (Document (da ++ db)).
Proof.
  intros cfg a b da db Hc Hn Ht Hp H1 H2 Hb F Ea Eb. apply (C70_block_syntax cfg Hc Ht Hp) in Eb. cbn [d_blocks] in Eb.
  destruct (blocks_append b cfg Hn Hb _ F (a ++ 10%N :: 10%N :: b)) with (db := db) as (d & B1 & B2); [left; now exists a|now apply calm_cut|exact Eb|].
  apply (C70_block_syntax cfg Hc Ht Hp _ (Document d)) in B1. rewrite Ea in B1. injection B1 as <-. now apply (C70_block_syntax cfg Hc Ht Hp).
Qed.
Print Assumptions C85_append_partial.

Lemma unfenced : forall cfg, custom_block cfg = None -> forall s bs, blocks cfg s bs -> calm cfg s -> ~ fence_line s -> fences_closed cfg s.
Proof.
  intros cfg Hn. fix IH 3. intros s bs H. destruct H as [s B|s bl m h r o l R E M H]; intros C D; [now constructor|].
  pose proof (repeated_lined _ _ (strict_lined _ _ blank_strict) _ _ _ R) as T. pose proof (calm_tail cfg _ _ C T) as Cm.
  pose proof (block_lined_ cfg Hn _ _ _ Cm E) as T2. pose proof (tail_trans _ _ _ T T2) as T3. destruct (tail_split _ _ T3) as (c & Ec).
  apply (closed_block cfg c s bl m h r o R E M Ec).
  - intros _ K. apply D. rewrite Ec. now apply fence_left.
  - apply (IH _ _ H (calm_tail cfg _ _ C T3)). intro K. apply D. exact (fence_tail _ _ T3 K).
Qed.
(** In plain words: no line of the first source begins with a code fence, with
    a tag ("<" in front of a letter, "/", "!" or "?") or with an incomplete label or
    a definition with a title, as far as these are read at all, and the text after
    the blank line is not indented. *)
Theorem C85_join_partial : forall cfg a b da db, custom_ok cfg -> custom_block cfg = None -> i_text cfg <> Ignore -> b_paragraph cfg <> Ignore ->
  self_contained cfg a -> (b_list cfg <> Ignore -> ~ indented b) ->
  parse_markdown cfg a = Ok [] (Document da) ->
  parse_markdown cfg b = Ok [] (Document db) ->
  parse_markdown cfg (a ++ [10%N; 10%N] ++ b) = Ok [] (Document (da ++ db)).
Proof.
  intros cfg a b da db Hc Hn Ht Hp (H0 & Hf & H1 & H2) Hb Ea Eb.
  assert (Ex : parse_markdown cfg (a ++ [10%N; 10%N]) = Ok [] (Document da)).
  { rewrite <- Ea. apply (C82_final_newlines_partial cfg a 2 Hc Hn Ht Hp H0); [intro O; apply H2; now left|exact H1]. }
  assert (C : calm cfg (a ++ [10%N; 10%N])) by (apply calm_cut; [exact H1|intro O; exact (proj1 (H2 O))]).
  apply (C85_append_partial cfg a b da db Hc Hn Ht Hp H1); [intro O; exact (proj1 (H2 O))|exact Hb| |exact Ex|exact Eb].
  apply (unfenced cfg Hn _ da); [now apply (C70_block_syntax cfg Hc Ht Hp) in Ex|exact C|]. intro K. apply Hf. now apply fence_cut.
Qed.
Print Assumptions C85_join_partial.

Lemma indented_app : forall x y, ~ ends_in 13%N x -> indented (x ++ [10%N; 10%N] ++ y) -> indented x \/ indented y.
Proof.
  intros x y N (bl & m & R & B). destruct (blanks_aft y (x ++ [10%N; 10%N]) (x ++ [10%N; 10%N] ++ y)) with (bl := bl) (r' := m) as [(r & R1 & F)|(bl' & R1)]; [now exists x|exact R| |right; now exists bl', m].
  left. apply (begins_ext y c_sp _ _ F) in B. clear F R.
  assert (F1 : fin false x (x ++ [10%N])) by (left; split; [split; [exact N|discriminate]|reflexivity]).
  assert (F2 : fin false (x ++ [10%N]) (x ++ [10%N; 10%N])).
  { left. split; [|now rewrite <- app_assoc]. split; [|discriminate]. intros (u & E). apply app_inj_tail in E. destruct E as [_ E]. discriminate. }
  assert (Back : forall s s', fin false s s' -> forall bl r', repeated blank_line s' bl r' -> begins_with c_sp r' -> exists r, repeated blank_line s bl r /\ begins_with c_sp r).
  { intros s s' Fs l r' R' B'. destruct (proj2 (blanks_fin false s s' Fs l) r' R') as (q & Rq & Fq). exists q. split; [exact Rq|].
    destruct Fq as [[_ ->]|[-> ->]]; [|exact B']. destruct q as [|c q]; [|destruct B' as (t & E); injection E as -> _; now exists q]. destruct B' as (t & E). discriminate. }
  destruct (Back _ _ F2 _ _ R1 B) as (r2 & R2 & B2). destruct (Back _ _ F1 _ _ R2 B2) as (r3 & R3 & B3). now exists bl, r3.
Qed.
(** any number of them *)
Theorem C85_join_all_partial : forall cfg l ds, custom_ok cfg -> custom_block cfg = None -> i_text cfg <> Ignore -> b_paragraph cfg <> Ignore ->
  (forall a, In a l -> self_contained cfg a /\ (b_list cfg <> Ignore -> ~ indented a)) ->
  Forall2 (fun a d => parse_markdown cfg a = Ok [] (Document d)) l ds ->
  parse_markdown cfg (join [10%N; 10%N] l) = Ok [] (Document (concat ds)).
Proof.
  intros cfg l ds Hc Hn Ht Hp H R.
  assert (I : b_list cfg <> Ignore -> forall k, (forall a, In a k -> self_contained cfg a /\ ~ indented a) -> ~ indented (join [10%N; 10%N] k)).
  { intros _ k. induction k as [|a k IH]; intros Hk.
    - intros (bl & m & Rb & (t & ->)). inversion Rb as [s N|s x m0 l0 r0 E Rr]; subst. destruct E as (E & _). symmetry in E. apply app_eq_nil in E. destruct E as [-> ->].
      apply blanks_ne in Rr. now apply (proj2 Rr).
    - destruct k as [|a2 k]; [exact (proj2 (Hk a (or_introl eq_refl)))|]. intro X. apply (indented_app a (join [10%N; 10%N] (a2 :: k))) in X; [|exact (proj1 (proj1 (Hk a (or_introl eq_refl))))].
      destruct X as [X|X]; [exact (proj2 (Hk a (or_introl eq_refl)) X)|]. apply IH in X; [exact X|]. intros z Z1. apply Hk. now right. }
  induction R as [|a d l ds Ea R IH]; [exact (proj2 (C70_block_syntax cfg Hc Ht Hp [] (Document [])) (Blocks_end cfg [] blank_nil))|].
  destruct l as [|a2 l]; [inversion R; subst; cbn [join concat]; now rewrite app_nil_r|].
  change (join [10%N; 10%N] (a :: a2 :: l)) with (a ++ [10%N; 10%N] ++ join [10%N; 10%N] (a2 :: l)). cbn [concat].
  assert (Hl : forall z, In z (a2 :: l) -> self_contained cfg z /\ (b_list cfg <> Ignore -> ~ indented z)) by (intros z Z1; apply H; now right).
  apply (C85_join_partial cfg a _ d _ Hc Hn Ht Hp); [exact (proj1 (H a (or_introl eq_refl)))| |exact Ea|exact (IH Hl)].
  intros O. apply (I O). intros z Z1. destruct (Hl z Z1) as [X Y]. auto.
Qed.
Print Assumptions C85_join_all_partial.

(** The conditions cannot be dropped: what the first source leaves open, the
    second one closes, across the blank line. *)
Theorem C85_append_refuted : forall entities punct upper,
  let cfg := default_config entities punct upper in
  let alone a b := (parse_markdown cfg a, parse_markdown cfg b) in
  let together a b := parse_markdown cfg (a ++ [10%N; 10%N] ++ b) in
  let text s := Ok [] (Document [BParagraph [IText s]]) in
  (* a code fence *)
  (alone (lit "```") (lit "```") = (text (lit "```"), text (lit "```")) /\
   together (lit "```") (lit "```") = Ok [] (Document [BCodeBlock (CodeBlock (Fenced None) [])])) /\
  (* an HTML comment *)
  (alone (lit "<!-- x") (lit "y -->") = (text (lit "<!-- x"), text (lit "y -->")) /\
   together (lit "<!-- x") (lit "y -->") = Ok [] (Document [BHtmlBlock (lit "<!-- x" ++ [10%N; 10%N] ++ lit "y -->")])) /\
  (* the label of a definition *)
  (alone (lit "[a") (lit "b]: c") = (text (lit "[a"), text (lit "b]: c")) /\
   together (lit "[a") (lit "b]: c") = Ok [] (Document [BDefinition (LinkDefinition [IText (lit "a" ++ [10%N; 10%N] ++ lit "b")] (lit "c") None)])) /\
  (* the title of a definition *)
  (alone (lit "[a]: b 'c") (lit "d'") = (Ok [] (Document [BParagraph [ILinkReference (LinkReference [IText (lit "a")] [IText (lit "a")]); IText (lit ": b 'c")]]), text (lit "d'")) /\
   together (lit "[a]: b 'c") (lit "d'") = Ok [] (Document [BDefinition (LinkDefinition [IText (lit "a")] (lit "b") (Some (lit "c" ++ [10%N; 10%N] ++ lit "d")))])) /\
  (* the label of a footnote *)
  (alone (lit "[^a") (lit "b]: c") = (text (lit "[^a"), text (lit "b]: c")) /\
   together (lit "[^a") (lit "b]: c") = Ok [] (Document [BFootnoteDefinition (FootnoteDefinition (lit "a" ++ [10%N; 10%N] ++ lit "b") [BParagraph [IText (lit "c")]])])) /\
  (* a list item *)
  (let item bs := Ok [] (Document [BList (MkList (Bullet Dash) [ListItem None bs])]) in
   alone (lit "- x") (lit "  y") = (item [BParagraph [IText (lit "x")]], text (lit "y")) /\
   together (lit "- x") (lit "  y") = item [BParagraph [IText (lit "x")]; BParagraph [IText (lit "y")]]).
Proof. intros. repeat apply conj; vm_compute; reflexivity. Qed.
Print Assumptions C85_append_refuted.

(** ** The conditions are met by ordinary sources, also with links, definitions or
    "<" at the beginning of a line *)
Fixpoint line_free (p : char) (at_start : bool) (s : str) : bool :=
  match s with
  | [] => true
  | c :: r => if N.eqb c p then negb at_start && line_free p false r
              else if N.eqb c 10 then line_free p true r
              else if N.eqb c 32 then line_free p at_start r else line_free p false r
  end.
Lemma line_free_check : forall p q s, p <> 10%N -> p <> 32%N -> line_free p true s = true -> ~ line_begins (p :: q) s.
Proof.
  intros p q s Np Ns.
  assert (X : forall u st k v, line_free p st (u ++ repeat 32%N k ++ p :: v) = true -> (u = [] /\ st = true) \/ ends_in 10%N u -> False).
  { induction u as [|c u IH]; intros st k v E U.
    - destruct U as [[_ ->]|(w & U)]; [|now destruct w]. cbn [app] in E. induction k as [|k IHk]; cbn [repeat app line_free] in E.
      + rewrite N.eqb_refl in E. discriminate.
      + destruct (N.eqb_spec 32 p); [congruence|]. exact (IHk E).
    - assert (V : (u = [] /\ c = 10%N) \/ ends_in 10%N u).
      { destruct U as [[U _]|(w & U)]; [discriminate|]. destruct w as [|d w]; [injection U as -> ->; now left|]. injection U as _ ->. right. now exists w. }
      cbn [app line_free] in E. destruct (N.eqb_spec c p) as [->|].
      + apply andb_prop in E. destruct E as [_ E]. apply (IH _ _ _ E). destruct V as [[_ V]|V]; [congruence|now right].
      + destruct (N.eqb_spec c 10) as [->|]; [apply (IH _ _ _ E); destruct V as [[-> _]|V]; [now left|now right]|].
        destruct V as [[_ V]|V]; [congruence|]. destruct (N.eqb c 32); apply (IH _ _ _ E); now right. }
  intros H (u & k & v & -> & U). apply (X u true k (q ++ v) H). destruct U as [->|U]; [now left|now right].
Qed.
Fixpoint untitled_b (s : str) : bool :=
  match s with
  | [] => true
  | c :: r => (N.eqb c 10 && match r with d :: _ => N.eqb d 10 | [] => false end) || (negb (existsb (N.eqb c) (34%N :: lit "'(\")) && untitled_b r)
  end.
Lemma untitled_check : forall s, untitled_b s = true -> untitled s.
Proof.
  induction s as [|c s IH]; intros H; [exists [], []; split; [reflexivity|]; split; [now left|intros c _ []]|]. cbn [untitled_b] in H. apply orb_true_iff in H. destruct H as [H|H]; apply andb_prop in H; destruct H as [H1 H2].
  - apply N.eqb_eq in H1. subst c. destruct s as [|d s]; [discriminate|]. apply N.eqb_eq in H2. subst d. exists [], (10%N :: 10%N :: s). split; [reflexivity|]. split; [right; now eexists|intros c _ []].
  - destruct (IH H2) as (p & q & -> & Q & N). exists (c :: p), q. split; [reflexivity|]. split; [exact Q|]. intros x I [->|J]; [|exact (N x I J)].
    assert (existsb (N.eqb x) (34%N :: lit "'(\") = true) as Y by (apply existsb_exists; exists x; split; [exact I|apply N.eqb_refl]). rewrite Y in H1. discriminate.
Qed.
Fixpoint text_b (s : str) : bool := match s with [] => false | c :: r => if N.eqb c 32 then text_b r else negb (existsb (N.eqb c) [10%N; 13%N]) end.
Lemma text_check : forall s, text_b s = true -> exists k c y, s = repeat 32%N k ++ c :: y /\ ~ In c [32%N; 10%N; 13%N].
Proof.
  induction s as [|c s IH]; intros H; [discriminate|]. cbn [text_b] in H. destruct (N.eqb_spec c 32) as [->|N].
  - destruct (IH H) as (k & d & y & -> & Nd). now exists (S k), d, y.
  - exists 0, c, s. split; [reflexivity|]. intros [J|J]; [congruence|]. assert (existsb (N.eqb c) [10%N; 13%N] = true) as E by (apply existsb_exists; exists c; split; [exact J|apply N.eqb_refl]). rewrite E in H. discriminate.
Qed.
Fixpoint label_free (foot : bool) (prev : char) (s : str) : bool :=
  match s with
  | [] => false
  | c :: r => if N.eqb c (ch "]") then negb (N.eqb prev (ch "\")) && match r with d :: _ => negb (N.eqb d (ch ":")) || untitled_b r || (foot && text_b (tl r)) | [] => true end else label_free foot c r
  end.
Definition foot_b (s : str) : bool := match s with c :: d :: _ => N.eqb c (ch "^") && negb (N.eqb d (ch "]")) | _ => false end.
Fixpoint labels_free (fn at_start : bool) (s : str) : bool :=
  match s with
  | [] => true
  | c :: r => if N.eqb c (ch "[") then (negb at_start || label_free (fn && foot_b r) c r) && labels_free fn false r
              else if N.eqb c 10 then labels_free fn true r
              else if N.eqb c 32 then labels_free fn at_start r else labels_free fn false r
  end.
Lemma label_free_check : forall foot s prev, label_free foot prev s = true -> exists w z, s = w ++ ch "]" :: z /\ ~ In (ch "]") w /\ ~ ends_in (ch "\") (prev :: w) /\
  (begins_with (ch ":") z -> untitled z \/ (foot = true /\ exists k c y, z = ch ":" :: repeat 32%N k ++ c :: y /\ ~ In c [32%N; 10%N; 13%N])).
Proof.
  intros foot. induction s as [|c s IH]; intros prev H; [discriminate|]. cbn [label_free] in H. destruct (N.eqb_spec c (ch "]")) as [->|N].
  - apply andb_prop in H. destruct H as [H1 H2]. exists [], s. split; [reflexivity|]. split; [intros []|]. split.
    + intros (u & E). destruct u as [|x [|y u]]; try discriminate. injection E as ->. discriminate.
    + intros (y & ->). cbn [tl] in H2. change (N.eqb (ch ":") (ch ":")) with true in H2. cbn [negb orb] in H2. apply orb_true_iff in H2. destruct H2 as [H2|H2]; [left; now apply untitled_check|].
      right. apply andb_prop in H2. destruct H2 as [-> H2]. split; [reflexivity|]. destruct (text_check _ H2) as (k & c & x & -> & N). now exists k, c, x.
  - destruct (IH c H) as (w & z & -> & I1 & I2 & I3). exists (c :: w), z. split; [reflexivity|]. split; [intros [J|J]; [congruence|exact (I1 J)]|]. split; [|exact I3].
    intros (u & E). destruct u as [|x u]; [discriminate|]. injection E as _ E. apply I2. now exists u.
Qed.
Lemma labels_check : forall fn (footnotes : Prop) s, (fn = true -> footnotes) -> labels_free fn true s = true -> labels_closed footnotes s.
Proof.
  intros fn footnotes s Hfn. revert s.
  assert (X : forall u st k v, labels_free fn st (u ++ repeat 32%N k ++ ch "[" :: v) = true -> (u = [] /\ st = true) \/ ends_in 10%N u -> label_free (fn && foot_b v) (ch "[") v = true).
  { induction u as [|c u IH]; intros st k v E U.
    - destruct U as [[_ ->]|(w & U)]; [|now destruct w]. induction k as [|k IHk]; [|exact (IHk E)]. cbn [repeat app labels_free] in E.
      change (N.eqb (ch "[") (ch "[")) with true in E. cbv iota in E. apply andb_prop in E. exact (proj1 E).
    - assert (V : (u = [] /\ c = 10%N) \/ ends_in 10%N u).
      { destruct U as [[U _]|(w & U)]; [discriminate|]. destruct w as [|d w]; [injection U as -> ->; now left|]. injection U as _ ->. right. now exists w. }
      cbn [app labels_free] in E. destruct (N.eqb_spec c (ch "[")) as [->|].
      + apply andb_prop in E. destruct E as [_ E]. apply (IH _ _ _ E). destruct V as [[_ V]|V]; [discriminate|now right].
      + destruct (N.eqb_spec c 10) as [->|]; [apply (IH _ _ _ E); destruct V as [[-> _]|V]; [now left|now right]|].
        destruct V as [[_ V]|V]; [congruence|]. destruct (N.eqb c 32); apply (IH _ _ _ E); now right. }
  intros s H u k v -> U. destruct (label_free_check (fn && foot_b v) v (ch "[")) as (w & z & E & I1 & I2 & I3).
  - apply (X u true k v H). destruct U as [->|U]; [now left|now right].
  - exists w, z. split; [exact E|]. split; [exact I1|]. split; [intros (y & ->); apply I2; now exists (ch "[" :: y)|]. intros B. destruct (I3 B) as [I4|[Fo (j & c & y & Ez & Nc)]]; [now left|]. right.
    apply andb_prop in Fo. destruct Fo as [Fo1 Fo2]. split; [exact (Hfn Fo1)|]. subst v. destruct w as [|a [|d l]]; cbn [app foot_b] in Fo2.
    + destruct z as [|x z]; [discriminate|]. discriminate.
    + apply andb_prop in Fo2. destruct Fo2 as [_ Fo2]. discriminate.
    + apply andb_prop in Fo2. destruct Fo2 as [Fo2 _]. apply N.eqb_eq in Fo2. subst a. exists (d :: l), j, c, y. split; [reflexivity|]. split; [discriminate|]. now split.
Qed.
Definition closed_b (fn : bool) (s : str) : bool := forallb (fun p => line_free p true s) (lit "`~") && html_free true s && labels_free fn true s && negb (existsb (N.eqb (last s 0%N)) [13%N; ch "\"]).
Lemma closed_check : forall fn cfg s, (fn = true -> b_footnote_definition cfg <> Ignore) -> closed_b fn s = true -> self_contained cfg s.
Proof.
  intros fn cfg s Hfn H. unfold closed_b in H. apply andb_true_iff in H. destruct H as [H E]. apply andb_true_iff in H. destruct H as [H Lf]. apply andb_true_iff in H. destruct H as [H Hf]. rewrite forallb_forall in H.
  assert (L : forall c, In c (lit "`~") -> forall q, ~ line_begins (c :: q) s).
  { intros c I q. apply line_free_check; [| |exact (H c I)]; (intros ->; cbn in I; decompose [or] I; try discriminate; assumption). }
  assert (K : forall c, ends_in c s -> ~ In c [13%N; ch "\"]).
  { intros c (u & ->) I. rewrite last_last in E. cbn in I. destruct I as [<-|[<-|[]]]; discriminate. }
  split; [intro X; apply (K _ X); now left|]. split; [intros [X|X]; [apply (L (ch "`")) in X|apply (L (ch "~")) in X]; cbn; auto|].
  split; [intros _; now apply no_html_check|]. intros _. split; [now apply (labels_check fn)|]. intro X. apply (K _ X). right. now left.
Qed.
Lemma flush : forall c r, ~ In c [32%N; 9%N; 10%N; 13%N] -> ~ indented (c :: r).
Proof.
  intros c r N (bl & m & R & (t & ->)). inversion R as [s N2|s a m l q E R2]; subst; [apply N; now left|].
  destruct E as (_ & w & z & E & W & L). destruct w as [|d w].
  - cbn [app] in E. subst z. inversion L as [e q0 I Q|]; subst. destruct I as [-> | ->]; injection Q as <- _; apply N; cbn; auto.
  - injection E as <- _. inversion W as [|x0 y0 C]; subst. apply orb_prop in C. destruct C as [C|C]; apply N.eqb_eq in C; subst c; apply N; cbn; auto.
Qed.
Example C85_example : forall cfg,
  let a := lit "[# a](x) y" ++ [10%N] ++ lit "<3 b `c` <http://d.e> [f](g)" ++ [10%N; 10%N] ++ lit "- h" ++ [10%N] ++ lit "  i" in
  let b := lit "[i]: /j" ++ [10%N] ++ lit "[^k]: l" ++ [10%N; 10%N] ++ lit "> j (""x"")" ++ [10%N; 10%N] ++ lit "| k |" ++ [10%N] ++ lit "|---|" in
  self_contained cfg a /\ self_contained cfg b /\ ~ indented a /\ ~ indented b.
Proof.
  intros cfg. cbv zeta. split; [apply (closed_check false); [discriminate|vm_compute; reflexivity]|]. split; [apply (closed_check false); [discriminate|vm_compute; reflexivity]|].
  split; apply flush; intros [J|[J|[J|[J|[]]]]]; discriminate.
Qed.
(** a footnote with quotation marks *)
Example C85_footnote_example : let cfg := default_config (fun _ => None) (fun _ => false) (fun c => [c]) in
  self_contained cfg (lit "a[^1]" ++ [10%N; 10%N] ++ lit "[^1]: see 'b' (2010)").
Proof. apply (closed_check true); [discriminate|vm_compute; reflexivity]. Qed.
(** fenced code that is closed *)
Example C85_fence_example : let cfg := default_config (fun _ => None) (fun _ => false) (fun c => [c]) in
  let a := lit "a" ++ [10%N; 10%N] ++ lit "```" ++ [10%N] ++ lit "b" ++ [10%N] ++ lit "```" in
  fences_closed cfg (a ++ [10%N; 10%N]) /\ no_html a /\ labels_closed (b_footnote_definition cfg <> Ignore) a.
Proof.
  cbv zeta. set (cfg := default_config (fun _ => None) (fun _ => false) (fun c => [c])).
  assert (Hc : custom_ok cfg) by (split; intros p E; discriminate).
  assert (St : forall s c r o, block_ cfg s = Ok r o -> s = c ++ r -> ~ fence_line c \/ (exists x, o = [BCodeBlock x]) -> fences_closed cfg r -> fences_closed cfg s).
  { intros s c r o E Ec K F. apply (C70_one_block cfg Hc) in E; [|discriminate|discriminate]. destruct E as (bl & m & h & R & H & M). apply (closed_block cfg c s bl m h r o R H M Ec); [|exact F].
    intros T. destruct K as [K|(x & ->)]; [exact K|]. exfalso. inversion M as [h0 bk Mk Eh Eo|l Eh Eo]; subst; [|contradiction]. inversion Mk; subst; try contradiction; try (destruct k; try contradiction); discriminate. }
  split; [|split; [apply no_html_check; reflexivity|apply (labels_check false); [discriminate|reflexivity]]].
  refine (St _ (lit "a" ++ [10%N]) _ _ _ _ _ _); [vm_compute; reflexivity|reflexivity| |].
  - left. intros [X|X]; revert X; (apply line_free_check; [discriminate|discriminate|reflexivity]).
  - refine (St _ ([10%N] ++ lit "```" ++ [10%N] ++ lit "b" ++ [10%N] ++ lit "```" ++ [10%N]) _ _ _ _ _ _); [vm_compute; reflexivity|reflexivity| |].
    + right. eexists. reflexivity.
    + apply closed_end, blank_lf, blank_nil.
Qed.
