(** Reading printed lists. *)
From Coq Require Import String Lia.
From Verif Require NumFacts.
From Verif Require Import SpecBlock SyntaxFacts SyntaxBlock DecFacts.
From Verif Require Export RoundLaid RoundStart.
Import ListNotations.
Open Scope list_scope.
Local Notation len := (@List.length _).

(** ** Repetition *)
Lemma many0_chain : forall A X (p : parser A) (f : X -> str) (v : X -> A) (F : str -> Prop) r xs,
  (forall x r, In x xs -> F r -> p (f x ++ r) = Ok (tl r) (v x)) -> (forall x, In x xs -> f x <> []) ->
  (forall x u, In x (tl xs) -> F (c_nl :: f x ++ u)) -> F r -> p (tl r) = Err -> xs <> [] ->
  forall n, len (join [c_nl] (map f xs) ++ r) < n -> many0_go n p (join [c_nl] (map f xs) ++ r) = Ok (tl r) (map v xs).
Proof.
  intros A X p f v F r xs Hp Hf Hn Hr He Hne. induction xs as [|x xs IH]; intros n L; [congruence|]. destruct n as [|n]; [lia|]. cbn [many0_go].
  assert (N : f x <> []) by (apply Hf; now left). destruct xs as [|y xs].
  - cbn [map join] in *. rewrite Hp by (now left || assumption).
    assert (L1 : len (tl r) < len (f x ++ r)) by (rewrite app_length; destruct (f x); [congruence|]; destruct r; cbn [List.length tl]; lia).
    destruct (Nat.eqb_spec (len (tl r)) (len (f x ++ r))); [lia|]. rewrite (many0_end _ _ _ He) by lia. reflexivity.
  - cbn [map] in *. rewrite join_cons in * by discriminate. rewrite <- !app_assoc in *. cbn [app] in *.
    assert (E : exists u, join [c_nl] (f y :: map f xs) ++ r = f y ++ u) by (rewrite join_flat, <- app_assoc; eauto). destruct E as (u & E).
    rewrite Hp; [|now left|rewrite E; apply Hn; now left]. cbn [tl].
    match goal with |- context [(?a =? ?b)] => destruct (Nat.eqb_spec a b) as [Y|_] end.
    { exfalso. revert Y. rewrite !app_length. cbn [List.length]. rewrite !app_length. lia. }
    rewrite IH; [reflexivity|intros; apply Hp; [now right|assumption]|intros; apply Hf; now right|intros; apply Hn; now right|discriminate|].
    revert L. rewrite !app_length. cbn [List.length]. rewrite !app_length. lia.
Qed.
Lemma many1_chain : forall A X (p : parser A) (f : X -> str) (v : X -> A) (F : str -> Prop) r xs,
  (forall x r, In x xs -> F r -> p (f x ++ r) = Ok (tl r) (v x)) -> (forall x, In x xs -> f x <> []) ->
  (forall x u, In x (tl xs) -> F (c_nl :: f x ++ u)) -> F r -> p (tl r) = Err -> xs <> [] ->
  many1 p (join [c_nl] (map f xs) ++ r) = Ok (tl r) (map v xs).
Proof.
  intros A X p f v F r xs Hp Hf Hn Hr He Hne. destruct xs as [|x xs]; [congruence|]. unfold many1, bind. destruct xs as [|y xs].
  - cbn [map join]. rewrite Hp by (now left || assumption). unfold pmap, bind, many0. rewrite (many0_end _ _ _ He) by lia. reflexivity.
  - cbn [map]. rewrite join_cons by discriminate. rewrite <- !app_assoc. cbn [app].
    assert (E : exists u, join [c_nl] (f y :: map f xs) ++ r = f y ++ u) by (rewrite join_flat, <- app_assoc; eauto). destruct E as (u & E).
    rewrite Hp; [|now left|rewrite E; apply Hn; now left]. cbn [tl]. unfold pmap, bind, many0.
    change (f y :: map f xs) with (map f (y :: xs)).
    rewrite (many0_chain _ _ p f v F); [reflexivity|intros; apply Hp; [now right|assumption]|intros; apply Hf; now right|intros z w I; apply Hn; now right|exact Hr|exact He|discriminate|lia].
Qed.

(** ** Markers *)
(** the kind read from the marker of item [k] *)
Definition kind_at (kind : list_kind) (k : nat) : list_kind := match kind with Ordered n => Ordered (n + N.of_nat k) | b => b end.
Definition number_fits (kind : list_kind) (k : nat) : Prop := match kind with Ordered n => (n + N.of_nat k <= u64_max)%N | _ => True end.
Lemma marker_reads : forall kind k s, number_fits kind k -> marker_at (marker kind k ++ s) (kind_at kind k) s.
Proof.
  intros [n|[]] k s H; cbn [marker kind_at]; [|apply (mark_bullet (ch "-") Dash)|apply (mark_bullet (ch "*") Star)|apply (mark_bullet (ch "+") Plus)]; try (cbn; tauto).
  destruct (dec_numeral (n + N.of_nat k)) as (V & D & Z). rewrite <- app_assoc. apply (mark_number (dec (n + N.of_nat k)) (n + N.of_nat k) (ch ".") s).
  - apply NumFacts.numeral_dec. split; [|split; [|now symmetry]].
    + destruct Z as (d & l & -> & _). discriminate.
    + apply Forall_forall. intros c I. now apply (proj1 (forallb_forall _ _) D).
  - unfold number_fits, u64_max in H. cbn. lia.
  - now left.
Qed.

Lemma kind_style : forall kind i k, same_style (kind_at kind i) (kind_at kind k).
Proof. intros [n|b] i k; cbn; auto. Qed.
Lemma marker_head : forall kind k, exists c t, marker kind k = c :: t /\ inked c /\ (is_digit c = true \/ In c (lit "-*+")).
Proof.
  intros [n|b] k; cbn [marker].
  - destruct (dec_numeral (n + N.of_nat k)) as (_ & D & d & l & E & _). rewrite E in *. cbn [forallb] in D. apply andb_prop in D as [D _]. exists d. eexists. split; [reflexivity|]. split; [|now left].
    unfold is_digit in D. apply andb_prop in D as [D1 D2]. apply N.leb_le in D1, D2. change (ch "0") with 48%N in *. change (ch "9") with 57%N in *.
    unfold inked, line_char, is_space, c_nl, c_cr, c_tab, c_sp. split; [split; lia|]. apply orb_false_iff. split; apply N.eqb_neq; lia.
  - destruct b; (eexists _, []; split; [reflexivity|]; split; [repeat split; discriminate|right; cbn; tauto]).
Qed.
Lemma marker_parses : forall kind k s, number_fits kind k -> p_list_marker (marker kind k ++ s) = Ok s (kind_at kind k).
Proof. intros. apply (exact_ok _ _ exact_marker). now apply marker_reads. Qed.
Lemma marker_same : forall kind i k s, number_fits kind k -> p_marker_of_kind (kind_at kind i) (marker kind k ++ s) = Ok s (kind_at kind k).
Proof. intros. apply (exact_ok _ _ (exact_marker_kind _)). split; [now apply marker_reads|apply kind_style]. Qed.

(** ** The first line of an item *)
Definition task_text (t : option task_state) : str := flat_map piece_text (task_view t).
(** a line that cannot be taken for a task *)
Definition no_task_line (l : str) : Prop := (exists c t, l = c :: t /\ inked c) /\
  forall x t, l = ch "[" :: x :: ch "]" :: t -> exists c u, t = c :: u /\ inked c.
Definition item_line (task : option task_state) (l : str) : Prop :=
  Forall line_char l /\ (task = None -> l = [] \/ no_task_line l).
Lemma spaces14 : forall s, no_space s -> many_m_n 1 4 (chr " ") (c_sp :: s) = Ok s [c_sp].
Proof.
  intros s H. cbn [many_m_n]. rewrite sp_char. match goal with |- context [(?a =? ?b)] => destruct (Nat.eqb_spec a b) as [Y|_]; [cbn in Y; lia|] end.
  cbn [pred]. rewrite sp_none by exact H. reflexivity.
Qed.
Lemma inked_sp : forall c, inked c -> c <> c_sp.
Proof. intros c [_ H] ->. discriminate H. Qed.
Lemma item_opens : forall a kind k task l r, a <= 3 -> number_fits kind k -> item_line task l -> stops r ->
  p_marker_with_span (rep a c_sp ++ marker kind k ++ c_sp :: task_text task ++ l ++ r) = Ok (tl r) (kind_at kind k, a + len (marker kind k) + 1, task, l).
Proof.
  intros a kind k task l r Ha Hk [Hl Ht] Hr. destruct (marker_head kind k) as (c & t & E & Hc & _).
  pose proof (marker_parses kind k) as PM. set (mk := marker kind k) in *.
  assert (M : forall u, preceded up_to_3_spaces p_list_marker (rep a c_sp ++ mk ++ u) = Ok u (kind_at kind k)).
  { intros u. unfold preceded, bind. rewrite up3; [now apply PM|exact Ha|]. rewrite E. cbn [app]. apply no_space_cons. now apply inked_sp. }
  assert (C : forall u, consumed (preceded up_to_3_spaces p_list_marker) (rep a c_sp ++ mk ++ u) = Ok u (kind_at kind k, a + len mk)).
  { intros u. unfold consumed. rewrite M. do 2 f_equal. unfold rep. autorewrite with lens. lia. }
  assert (D : forall u, no_space u -> consumed (delimited up_to_3_spaces p_list_marker (many_m_n 1 4 (chr " "))) (rep a c_sp ++ mk ++ c_sp :: u) = Ok u (kind_at kind k, a + len mk + 1)).
  { intros u Hu. unfold consumed. replace (delimited up_to_3_spaces p_list_marker (many_m_n 1 4 (chr " ")) (rep a c_sp ++ mk ++ c_sp :: u)) with (Ok u (kind_at kind k)).
    - do 2 f_equal. unfold rep. autorewrite with lens. lia.
    - unfold delimited, preceded, bind. rewrite up3; [|exact Ha|rewrite E; apply no_space_cons; now apply inked_sp]. unfold terminated, bind. rewrite PM by exact Hk.
      unfold value, pmap, bind. now rewrite spaces14. }
  assert (F : not_eof_or_eol0 (l ++ r) = Ok r l) by now apply not_eol0_line.
  assert (G : forall u x, line_terminated p_task_state u = Err -> (exists d v, u = d :: v /\ inked d) ->
      opt (terminated p_task_state (chr " ")) u = Ok (l ++ r) x ->
      p_marker_with_span (rep a c_sp ++ mk ++ c_sp :: u) = Ok (tl r) (kind_at kind k, a + len mk + 1, x, l)).
  { intros u x G1 (d & v & -> & G2) G3. unfold p_marker_with_span, alt. rewrite or_e.
    - unfold pair_. unfold bind at 1, p_marker_spaces. unfold bind at 1. rewrite D by (apply no_space_cons; now apply inked_sp). unfold bind at 1. rewrite G3.
      unfold ret. unfold pmap, bind. rewrite (lt_stop _ _ _ r l F Hr). reflexivity.
    - apply pmap_e. unfold p_marker_newline. unfold bind at 1. rewrite C. rewrite or_e.
      + unfold bind at 1, consumed. change (c_sp :: d :: v) with (rep 1 c_sp ++ d :: v). rewrite up3; [|lia|apply no_space_cons; now apply inked_sp]. apply bind_e. exact G1.
      + apply pmap_e. eapply lt_char; [apply (space0_line 1 (d :: v)); apply G2|apply G2]. }
  destruct task as [tk|].
  - assert (X : task_text (Some tk) ++ l ++ r = ch "[" :: (match tk with Complete => ch "X" | Incomplete => c_sp end) :: ch "]" :: c_sp :: l ++ r) by (destruct tk; reflexivity).
    rewrite X. apply G.
    + apply no_task. intros x u Hx Y. injection Y as _ <-. exists c_sp. eexists. split; [reflexivity|split; discriminate].
    + eexists _, _. split; [reflexivity|repeat split; discriminate].
    + unfold opt, terminated, bind. destruct tk; reflexivity.
  - change (task_text None ++ l ++ r) with (l ++ r). destruct (Ht eq_refl) as [->|[(d & v & Ev & Hd) Ho]].
    + cbn [app]. unfold p_marker_with_span, alt. apply or_ok.
      change (kind_at kind k, a + len mk + 1, @None task_state, @nil char) with ((fun x : list_kind * nat * option task_state => (x, @nil char)) (kind_at kind k, a + len mk + 1, None)).
      apply pmap_ok. unfold p_marker_newline. unfold bind at 1. rewrite C. apply or_ok. apply (pmap_ok _ _ (fun _ => (kind_at kind k, a + len mk + 1, None)) _ _ _ [c_sp]).
      apply (lt_stop _ _ _ r); [|exact Hr]. apply (space0_line 1 r). destruct r as [|x r]; [exact I|]. cbn in Hr. subst x. reflexivity.
    + assert (T : forall x u, l ++ r = ch "[" :: x :: ch "]" :: u -> In x (lit "xX ") -> exists c w, u = c :: w /\ inked c).
      { intros x u Y Hx. destruct l as [|l1 [|l2 [|l3 l]]]; cbn [app] in Y.
        - discriminate Ev.
        - injection Y as -> Y. destruct r as [|r1 r]; [discriminate|]. cbn in Hr. subst r1. injection Y as <- _. cbn in Hx. intuition discriminate.
        - injection Y as -> -> Y. destruct r as [|r1 r]; [discriminate|]. cbn in Hr. subst r1. discriminate.
        - injection Y as -> -> -> <-. destruct (Ho x l eq_refl) as (y & w & -> & Hy). eexists _, _. split; [reflexivity|exact Hy]. }
      apply G.
      * apply no_task. intros x u Hx Y. destruct (T x u Y Hx) as (y & w & -> & Hy). exists y, w. split; [reflexivity|apply Hy].
      * rewrite Ev. eexists _, _. split; [reflexivity|exact Hd].
      * unfold opt, terminated, bind. destruct (p_task_state (l ++ r)) as [u x| |] eqn:P; [|reflexivity|].
        -- assert (X : exists y, In y (lit "xX ") /\ l ++ r = ch "[" :: y :: ch "]" :: u).
           { clear -P. set (s := l ++ r) in *. unfold p_task_state, delimited, preceded, terminated, bind, chr, char_, satisfy in P. destruct s as [|c s]; [discriminate|].
             destruct (N.eqb_spec (ch "[") c) as [<-|]; [|discriminate]. destruct s as [|y s]; [discriminate|]. exists y.
             unfold alt, or_else, value, pmap, bind, one_of, satisfy, ret in P. destruct (existsb _ _) eqn:B in P.
             - apply existsb_exists in B as (z & I & ->%N.eqb_eq). split; [cbn in I |- *; tauto|].
               destruct s as [|z' s]; [discriminate|]. destruct (N.eqb_spec (ch "]") z') as [<-|]; [|discriminate]. now injection P as -> _.
             - destruct (N.eqb_spec (ch " ") y) as [<-|]; [|discriminate]. split; [cbn; tauto|].
               destruct s as [|z s]; [discriminate|]. destruct (N.eqb_spec (ch "]") z) as [<-|]; [|discriminate]. now injection P as -> _. }
           destruct X as (y & Hy & X). destruct (T y u X Hy) as (z & w & -> & Hz). unfold value, pmap, bind.
           rewrite sp_none by (apply no_space_cons; now apply inked_sp). reflexivity.
        -- exfalso. clear -P. set (s := l ++ r) in *. unfold p_task_state, delimited, preceded, terminated, bind, chr, char_, satisfy in P. destruct s as [|c s]; [discriminate|].
           destruct (N.eqb_spec (ch "[") c) as [<-|]; [|discriminate]. destruct s as [|x s]; [discriminate|].
           unfold alt, or_else, value, pmap, bind, one_of, satisfy, ret in P. destruct (existsb _ _) in P.
           ++ destruct s as [|y s]; [discriminate|]. destruct (N.eqb (ch "]") y); discriminate.
           ++ destruct (N.eqb (ch " ") x); [|discriminate]. destruct s as [|y s]; [discriminate|]. destruct (N.eqb (ch "]") y); discriminate.
Qed.

(** ** The other lines *)
(** a line that does not end the item *)
Definition inner_line (n : nat) (l : str) : Prop := l <> [] /\ Forall line_char l /\ forall r, stops r -> p_thematic_break (rep n c_sp ++ l ++ r) = Err.
Lemma rep_cut : forall n m, m <= n -> rep n c_sp = rep m c_sp ++ rep (n - m) c_sp.
Proof. intros n m H. unfold rep. rewrite <- repeat_app. f_equal. lia. Qed.
Lemma spaces_take : forall n s, many_m_n 0 n (chr " ") (rep n c_sp ++ s) = Ok s (rep n c_sp).
Proof. intros. apply many_spaces; [lia|now right]. Qed.
Lemma spaces_few : forall n m s, m <= n -> no_space s -> many_m_n 0 n (chr " ") (rep m c_sp ++ s) = Ok s (rep m c_sp).
Proof. intros. apply many_spaces; [lia|now left]. Qed.
Lemma spaces_exact : forall n s, many_m_n n n (chr " ") (rep n c_sp ++ s) = Ok s (rep n c_sp).
Proof.
  induction n as [|n IH]; intros s; [reflexivity|]. cbn [rep repeat app many_m_n]. rewrite sp_char.
  match goal with |- context [(?a =? ?b)] => destruct (Nat.eqb_spec a b) as [Y|_]; [cbn in Y; lia|] end. cbn [pred]. fold (rep n c_sp). now rewrite IH.
Qed.
Lemma spaces_short : forall n m s, m < n -> no_space s -> many_m_n n n (chr " ") (rep m c_sp ++ s) = Err.
Proof.
  induction n as [|n IH]; intros m s L H; [lia|]. cbn [many_m_n]. destruct m as [|m].
  - cbn [rep repeat app]. now rewrite sp_none.
  - cbn [rep repeat app]. rewrite sp_char. match goal with |- context [(?a =? ?b)] => destruct (Nat.eqb_spec a b) as [Y|_]; [cbn in Y; lia|] end. cbn [pred]. fold (rep m c_sp).
    rewrite IH by (lia || assumption). reflexivity.
Qed.
Definition lesser_marker (kind : list_kind) (n : nat) : parser unit :=
  p_unit (pair_ (verify (recognize (many_m_n 0 n (chr " "))) (fun indent => len indent <? n)) (p_marker_of_kind kind)).
Lemma lesser_full : forall kind n s, lesser_marker kind n (rep n c_sp ++ s) = Err.
Proof.
  intros. unfold lesser_marker, p_unit. apply unit_e. apply pair_e1. unfold verify, bind. rewrite (recognize_app _ _ (rep n c_sp) s (rep n c_sp)) by apply spaces_take.
  unfold rep. rewrite repeat_length. destruct (Nat.ltb_spec n n); [lia|reflexivity].
Qed.
Lemma lesser_blank : forall kind n m s, stops s -> m <= n -> lesser_marker kind n (rep m c_sp ++ s) = Err.
Proof.
  intros kind n m s Hs L. destruct (Nat.eq_dec m n) as [->|N]; [apply lesser_full|]. unfold lesser_marker, p_unit. apply unit_e.
  eapply pair_e2.
  - unfold verify, bind. rewrite (recognize_app _ _ (rep m c_sp) s (rep m c_sp)).
    + unfold rep at 1. rewrite repeat_length. destruct (Nat.ltb_spec m n); [reflexivity|lia].
    + apply spaces_few; [lia|]. destruct s as [|c s]; [intros t E; discriminate|]. cbn in Hs. subst c. now apply no_space_cons.
  - apply (exact_err _ _ (exact_marker_kind kind)). intros (k & r & H & _). inversion H as [ds nn c r' NU|c b r' I]; subst.
    + apply NumFacts.numeral_dec in NU as (Nn & A & _). destruct ds as [|d ds]; [congruence|]. cbn in Hs. subst d. inversion A. discriminate.
    + cbn in Hs. subst c. cbn in I. intuition discriminate.
Qed.
Lemma rule_blank : forall m s, stops s -> p_thematic_break (rep m c_sp ++ s) = Err.
Proof.
  intros m s Hs. assert (H : spaced s) by now left.
  assert (NS : no_space s) by (destruct s as [|c s]; [intros t E; discriminate|]; cbn in Hs; subst c; now apply no_space_cons).
  unfold p_thematic_break, p_unit. apply unit_e, lt_err. unfold preceded, bind at 1. rewrite up3_any by exact NS. unfold terminated. apply bind_e.
  assert (X : forall c, c <> c_nl -> c <> c_sp -> char_ c (rep (m - 3) c_sp ++ s) = Err).
  { intros c H1 H2. apply blank_chr; [|exact H1|exact H2]. destruct (m - 3); [exact H|right; eexists; reflexivity]. }
  apply alt_err. repeat (apply Forall_cons1; [unfold many_ge; rewrite Nat.add_comm; cbn [plus many_m_n]; unfold chr; rewrite X by discriminate; reflexivity|]). constructor.
Qed.
Definition rest_go (kind : list_kind) (n : nat) : parser (list str) :=
  line_terminated (preceded (peek (not_ (alt [p_thematic_break; lesser_marker kind n])))
    (alt [preceded (many_m_n 0 n (chr " ")) (pmap (fun v => [v]) not_eof_or_eol1);
          pmap (fun '(newlines, content) => [newlines; content])
            (pair_ (recognize (many1 (line_terminated space0))) (preceded (many_m_n n n (chr " ")) not_eof_or_eol1))])).
Lemma rest_eq : forall kind n s, p_rest_line kind n s = match s with [] => Err | _ => rest_go kind n s end.
Proof. reflexivity. Qed.
Lemma rest_ne : forall kind n s, s <> [] -> p_rest_line kind n s = rest_go kind n s.
Proof. intros kind n [|c s] H; [congruence|apply rest_eq]. Qed.
Lemma rest_plain : forall kind n l r, inner_line n l -> stops r -> p_rest_line kind n (rep n c_sp ++ l ++ r) = Ok (tl r) [l].
Proof.
  intros kind n l r (N & Hl & Hx) Hr. rewrite rest_ne by (destruct n; [destruct l; [congruence|discriminate]|discriminate]).
  unfold rest_go. apply (lt_stop _ _ _ r); [|exact Hr]. unfold preceded at 1, bind at 1, peek, not_. cbn [alt].
  rewrite or_e by now apply Hx. rewrite lesser_full. apply or_ok. unfold preceded, bind. rewrite spaces_take.
  apply (pmap_ok _ _ (fun v => [v])). now apply not_eol1_line.
Qed.
Lemma blank_lines : forall m s, starts_line s -> recognize (many1 (line_terminated space0)) (rep m c_sp ++ c_nl :: s) = Ok s (rep m c_sp ++ [c_nl]).
Proof.
  intros m s Hs. change (rep m c_sp ++ c_nl :: s) with (rep m c_sp ++ [c_nl] ++ s). rewrite app_assoc. apply (recognize_app _ _ _ s [rep m c_sp]). rewrite <- app_assoc. cbn [app].
  unfold many1, bind. rewrite (lt_stop _ _ _ (c_nl :: s) (rep m c_sp)); [|now apply space0_line|reflexivity]. cbn [tl].
  unfold pmap, bind, many0. rewrite many0_end; [reflexivity| |lia]. destruct Hs as (k & c & t & -> & Hc). eapply lt_char; [apply space0_line; apply Hc|apply Hc].
Qed.
Lemma rest_gap : forall kind n l r, inner_line n l -> starts_line l -> stops r ->
  p_rest_line kind n (rep n c_sp ++ c_nl :: rep n c_sp ++ l ++ r) = Ok (tl r) [rep n c_sp ++ [c_nl]; l].
Proof.
  intros kind n l r (N & Hl & Hx) Hs Hr. rewrite rest_ne by (destruct n; discriminate).
  unfold rest_go. apply (lt_stop _ _ _ r); [|exact Hr]. unfold preceded at 1, bind at 1, peek, not_. cbn [alt].
  rewrite or_e by (now apply rule_blank). rewrite lesser_full. rewrite or_e.
  - apply (pmap_ok _ _ (fun '(newlines, content) => [newlines; content]) _ _ _ (rep n c_sp ++ [c_nl], l)). eapply pair_ok.
    + apply blank_lines. destruct Hs as (k & c & t & -> & Hc). exists (n + k), c, (t ++ r). split; [|exact Hc]. unfold rep. rewrite repeat_app, <- !app_assoc. reflexivity.
    + unfold preceded, bind. rewrite spaces_exact. now apply not_eol1_line.
  - unfold preceded, bind. rewrite spaces_take. apply pmap_e. now apply not_eol1_stop.
Qed.
(** what ends an item *)
Definition item_end (kind : list_kind) (a n : nat) (r : str) : Prop :=
  r = [] \/ (exists i t, number_fits kind i /\ r = c_nl :: rep a c_sp ++ marker kind i ++ t) \/
  exists j i c t, j <= n /\ i < n /\ inked c /\ r = c_nl :: rep j c_sp ++ c_nl :: rep i c_sp ++ c :: t.
Lemma item_end_stops : forall kind a n r, item_end kind a n r -> stops r.
Proof. intros kind a n r [->|[(i & t & _ & ->)|(j & i & c & t & _ & _ & _ & ->)]]; [exact I|reflexivity|reflexivity]. Qed.
Lemma rest_end : forall kind k a n r, a < n -> item_end kind a n r -> p_rest_line (kind_at kind k) n (tl r) = Err.
Proof.
  intros kind k a n r La [->|[(i & t & Hi & ->)|(j & i & c & t & Lj & Li & Hc & ->)]]; [reflexivity|cbn [tl]|cbn [tl]].
  - destruct (marker_head kind i) as (c & u & E & Hc & _). rewrite rest_ne by (rewrite E; destruct a; discriminate).
    unfold rest_go. apply lt_err. unfold preceded at 1. apply bind_e. unfold peek, not_.
    assert (X : exists s x, lesser_marker (kind_at kind k) n (rep a c_sp ++ marker kind i ++ t) = Ok s x).
    { eexists _, _. unfold lesser_marker, p_unit, value. eapply (pmap_ok _ _ (fun _ => tt)). eapply pair_ok.
      - unfold verify, bind. rewrite (recognize_app _ _ (rep a c_sp) (marker kind i ++ t) (rep a c_sp)).
        + unfold rep at 1. rewrite repeat_length. destruct (Nat.ltb_spec a n); [reflexivity|lia].
        + apply spaces_few; [lia|]. rewrite E. apply no_space_cons. now apply inked_sp.
      - now apply marker_same. }
    destruct X as (s & x & X). unfold alt, or_else. rewrite X. destruct (p_thematic_break _) eqn:Q; try reflexivity. exfalso.
    assert (Sf : safe p_thematic_break) by (apply rel_safe; intro; unfold p_thematic_break; rel).
    exact (Sf _ Q).
  - rewrite rest_ne by (destruct j; discriminate). unfold rest_go. apply lt_err. unfold preceded at 1, bind at 1, peek, not_. cbn [alt].
    rewrite or_e by now apply rule_blank. rewrite lesser_blank by (reflexivity || assumption). rewrite or_e.
    + apply pmap_e. eapply pair_e2.
      * apply blank_lines. now exists i, c, t.
      * unfold preceded. apply bind_e. apply spaces_short; [exact Li|]. apply no_space_cons. now apply inked_sp.
    + unfold preceded, bind. rewrite spaces_few; [|exact Lj|now apply no_space_cons]. apply pmap_e. now apply not_eol1_stop.
Qed.

(** ** Items *)
Definition chunk_text (n : nat) (x : bool * str) : str := (if fst x then rep n c_sp ++ [c_nl] else []) ++ rep n c_sp ++ snd x.
Definition chunk_lines (n : nat) (x : bool * str) : list str := if fst x then [rep n c_sp ++ [c_nl]; snd x] else [snd x].
Definition head_line (o : str) : str := hd [] (split_lines o).
Definition plain_chunks (o : str) : list (bool * str) := map (pair false) (tl (split_lines o)).
Definition chunks (os : list str) : list (bool * str) :=
  match os with [] => [] | o :: os => plain_chunks o ++ flat_map (fun o => (true, head_line o) :: plain_chunks o) os end.
Lemma split_head : forall o, split_lines o = head_line o :: tl (split_lines o).
Proof. intros o. unfold head_line. pose proof (split_ne o). now destruct (split_lines o). Qed.
Lemma lines_flat : forall o, o = head_line o ++ flat_map (fun l => c_nl :: l) (tl (split_lines o)).
Proof. intros o. rewrite <- (split_join o) at 1. rewrite split_head at 1. now rewrite join_flat. Qed.
Lemma ind_lines : forall n o, ind n o = head_line o ++ flat_map (fun l => c_nl :: rep n c_sp ++ l) (tl (split_lines o)).
Proof.
  intros n o. pose proof (pre_ind n o) as E. unfold pre in E. rewrite split_head in E at 1. cbn [map] in E. rewrite join_flat, flat_map_map, <- app_assoc in E.
  apply app_inv_head in E. now rewrite <- E.
Qed.
Lemma ind_join : forall n o os, ind n (join [c_nl; c_nl] (o :: os)) = ind n o ++ flat_map (fun o => c_nl :: rep n c_sp ++ c_nl :: rep n c_sp ++ ind n o) os.
Proof.
  intros n o os. rewrite join_flat, ind_app. f_equal. induction os as [|x os IH]; [reflexivity|]. cbn [flat_map]. rewrite ind_app, IH.
  change ([c_nl; c_nl] ++ x) with (c_nl :: c_nl :: x). rewrite !ind_nl. cbn [app]. rewrite <- !app_assoc. cbn [app]. now rewrite <- !app_assoc.
Qed.
Lemma plain_text : forall n o, flat_map (fun x => c_nl :: chunk_text n x) (plain_chunks o) = flat_map (fun l => c_nl :: rep n c_sp ++ l) (tl (split_lines o)).
Proof. intros n o. unfold plain_chunks. now rewrite flat_map_map. Qed.
Lemma content_text : forall n o os, ind n (join [c_nl; c_nl] (o :: os)) = head_line o ++ flat_map (fun x => c_nl :: chunk_text n x) (chunks (o :: os)).
Proof.
  intros n o os. rewrite ind_join. cbn [chunks]. rewrite flat_map_app, plain_text, ind_lines, <- app_assoc. do 2 f_equal.
  induction os as [|x os IH]; [reflexivity|]. cbn [flat_map app]. rewrite flat_map_app, <- IH, plain_text, ind_lines. unfold chunk_text at 1. cbn [fst snd].
  rewrite <- !app_assoc. cbn [app]. rewrite <- !app_assoc. reflexivity.
Qed.
Lemma content_lines : forall n o os, lines_content (head_line o) (map (@concat _) (map (chunk_lines n) (chunks (o :: os)))) = join (sepk n) (o :: os).
Proof.
  intros n o os. unfold lines_content. rewrite join_flat. rewrite (lines_flat o) at 3. rewrite <- app_assoc. f_equal. cbn [chunks].
  assert (P : forall x, flat_map (fun l => c_nl :: l) (map (@concat _) (map (chunk_lines n) (plain_chunks x))) = flat_map (fun l => c_nl :: l) (tl (split_lines x))).
  { intros x. unfold plain_chunks. rewrite !map_map, flat_map_map. apply flat_map_ext. intros l. cbn. now rewrite app_nil_r. }
  rewrite !map_app, flat_map_app, P. f_equal.
  induction os as [|x os IH]; [reflexivity|]. cbn [flat_map]. rewrite !map_app, flat_map_app, IH. f_equal. cbn [map flat_map]. rewrite P.
  unfold chunk_lines. cbn [fst snd concat]. rewrite app_nil_r. unfold sepk. rewrite (lines_flat x) at 3. cbn [app]. rewrite <- !app_assoc. reflexivity.
Qed.
Definition chunk_ok (n : nat) (x : bool * str) : Prop := inner_line n (snd x) /\ (fst x = true -> starts_line (snd x)).
(** texts of blocks that can stand in an item *)
Definition item_texts (n : nat) (os : list str) : Prop :=
  match os with [] => True | o :: os => Forall (inner_line n) (tl (split_lines o)) /\ Forall (fun o => Forall (inner_line n) (split_lines o) /\ starts_line (head_line o)) os end.
Lemma in_item_chunks : forall n os, item_texts n os -> Forall (chunk_ok n) (chunks os).
Proof.
  intros n [|o os] H; [constructor|]. destruct H as [H1 H2].
  assert (P : forall x, Forall (inner_line n) (tl (split_lines x)) -> Forall (chunk_ok n) (plain_chunks x)).
  { intros x F. unfold plain_chunks. apply Forall_map. eapply Forall_impl; [|exact F]. intros l L. split; [exact L|discriminate]. }
  cbn [chunks]. apply Forall_app. split; [now apply P|]. clear H1. induction H2 as [|x os [X1 X2] H2 IH]; [constructor|]. cbn [flat_map]. apply Forall_app. split; [|exact IH].
  rewrite split_head in X1. inversion X1; subst. constructor; [now split|now apply P].
Qed.
Lemma chunk_reads : forall kind n x r, chunk_ok n x -> stops r -> p_rest_line kind n (chunk_text n x ++ r) = Ok (tl r) (chunk_lines n x).
Proof.
  intros kind n [[] l] r [H1 H2] Hr; unfold chunk_text, chunk_lines; cbn [fst snd] in *.
  - rewrite <- !app_assoc. cbn [app]. apply rest_gap; auto.
  - cbn [app]. rewrite <- app_assoc. now apply rest_plain.
Qed.
Lemma flat_join : forall n x xs, flat_map (fun x => c_nl :: chunk_text n x) (x :: xs) = c_nl :: join [c_nl] (map (chunk_text n) (x :: xs)).
Proof. intros n x xs. cbn [flat_map map]. rewrite join_flat, flat_map_map. reflexivity. Qed.
Lemma item_reads : forall a kind k task os r, let n := a + len (marker kind k) + 1 in
  a <= 3 -> number_fits kind k -> item_line task (match os with [] => [] | o :: _ => head_line o end) -> item_texts n os -> item_end kind a n r ->
  p_list_item_lines (rep a c_sp ++ marker kind k ++ c_sp :: task_text task ++ ind n (join [c_nl; c_nl] os) ++ r) = Ok (tl r) (kind_at kind k, task, join (sepk n) os).
Proof.
  intros a kind k task os r n Ha Hk Hl Hos Hr. pose proof (item_end_stops _ _ _ _ Hr) as St.
  set (first := match os with [] => [] | o :: _ => head_line o end) in *.
  assert (E1 : ind n (join [c_nl; c_nl] os) = first ++ flat_map (fun x => c_nl :: chunk_text n x) (chunks os)) by (destruct os; [reflexivity|apply content_text]).
  assert (E2 : lines_content first (map (@concat _) (map (chunk_lines n) (chunks os))) = join (sepk n) os) by (destruct os; [reflexivity|apply content_lines]).
  rewrite E1, <- E2. pose proof (in_item_chunks n os Hos) as F. rewrite <- app_assoc.
  unfold p_list_item_lines. unfold bind at 1. rewrite item_opens; [|exact Ha|exact Hk|exact Hl|].
  2:{ destruct (chunks os); [exact St|reflexivity]. }
  fold n.
  assert (M : many0 (p_rest_line (kind_at kind k) n) (tl (flat_map (fun x => c_nl :: chunk_text n x) (chunks os) ++ r)) = Ok (tl r) (map (chunk_lines n) (chunks os))).
  { assert (Re : p_rest_line (kind_at kind k) n (tl r) = Err) by (apply (rest_end kind k a); [unfold n; lia|exact Hr]).
    destruct (chunks os) as [|x xs]; [unfold many0; cbn [app map]; rewrite many0_end; [reflexivity|exact Re|lia]|].
    rewrite flat_join. cbn [app tl]. unfold many0. apply (many0_chain _ _ _ (chunk_text n) (chunk_lines n) stops); [| | |exact St|exact Re|discriminate|lia].
    - intros y r' I S'. apply chunk_reads; [|exact S']. rewrite Forall_forall in F. now apply F.
    - intros y I X. rewrite Forall_forall in F. destruct (F y I) as [(N & _) _]. unfold chunk_text in X. apply app_eq_nil in X as [_ X]. now apply app_eq_nil in X as [_ X].
    - intros; reflexivity. }
  unfold bind. rewrite M. reflexivity.
Qed.

Lemma blank_item_e : forall r, blank_tail r -> p_list_item_lines (tl r) = Err.
Proof.
  intros r Hr. destruct (blank_up3 r Hr) as (s & x & U & Hs).
  assert (M : p_list_marker s = Err).
  { apply (exact_err _ _ exact_marker). intros (k & u & H).
    assert (B : exists c t, s = c :: t /\ (is_digit c = true \/ In c (lit "*+-"))).
    { inversion H as [ds nn c r' NU|c b r' I]; subst; [|exists c, u; split; [reflexivity|right; cbn in *; intuition congruence]].
      apply NumFacts.numeral_dec in NU as (N & A & _).
      destruct ds as [|d ds]; [congruence|]. exists d, (ds ++ c :: u). split; [reflexivity|left; now inversion A]. }
    destruct B as (c & t & -> & B). destruct Hs as [Hs|(t' & E)]; [cbn in Hs; subst c|injection E as -> ->]; (destruct B as [B|B]; [discriminate|cbn in B; intuition discriminate]). }
  unfold p_list_item_lines. apply bind_e. unfold p_marker_with_span. apply alt_err. apply Forall_cons1; [|apply Forall_cons1; [|constructor]].
  - apply pmap_e. unfold p_marker_newline. apply bind_e. unfold consumed, preceded, bind. now rewrite U, M.
  - unfold pair_. apply bind_e. unfold p_marker_spaces. apply bind_e. unfold consumed, delimited, preceded, bind. rewrite U. unfold terminated, bind. now rewrite M.
Qed.
Section Lists.
Variables (entities : str -> option str) (punct : char -> bool) (upper : char -> str).
Local Notation cfg := (default_config entities punct upper).
Local Notation rec := (block_ cfg).
Local Notation reads_at := (reads_at entities punct upper).
Local Notation alts := (alts entities punct upper).
Record item_src := Src { i_num : nat; i_task : option task_state; i_texts : list str; i_blocks : list block }.
Definition src_text (a n : nat) (kind : list_kind) (x : item_src) : str :=
  rep a c_sp ++ marker kind (i_num x) ++ c_sp :: task_text (i_task x) ++ ind n (join [c_nl; c_nl] (i_texts x)).
Definition item_ok (w : block -> nat) (a n m : nat) (kind : list_kind) (x : item_src) : Prop :=
  a + len (marker kind (i_num x)) + 1 = n /\ number_fits kind (i_num x) /\
  item_line (i_task x) (match i_texts x with [] => [] | o :: _ => head_line o end) /\ item_texts n (i_texts x) /\
  Forall2 (reads_at w n m) (i_texts x) (i_blocks x) /\ linked w n m (i_blocks x) (i_texts x).
Lemma concat_single : forall A (l : list A), concat (map (fun b => [b]) l) = l.
Proof. intros A l. induction l as [|b l IH]; [reflexivity|]. cbn. now f_equal. Qed.
Lemma item_parses : forall w a n m kind x r, a <= 3 -> item_ok w a n m kind x -> item_end kind a n r ->
  p_list_item rec (src_text a n kind x ++ r) = Ok (tl r) (kind_at kind (i_num x), ListItem (i_task x) (i_blocks x)).
Proof.
  intros w a n m kind x r Ha (<- & Hk & Hl & Hi & Hr & Hl2) He. unfold src_text. rewrite <- !app_assoc. cbn [app]. rewrite <- !app_assoc.
  unfold p_list_item. unfold bind at 1. rewrite item_reads by assumption. unfold bind, pmap, bind, nested.
  rewrite (many0_reads entities punct upper w _ m _ _ Hr Hl2). unfold ret. now rewrite concat_single.
Qed.
Lemma reads_list : forall w a n m kind x xs, a <= 3 -> i_num x = 0 -> Forall (item_ok w a n m kind) (x :: xs) ->
  let b := BList (MkList kind (map (fun x => ListItem (i_task x) (i_blocks x)) (x :: xs))) in
  forall w' j m', w' b <= n -> m' < n -> reads_at w' j m' (join [c_nl] (map (src_text a n kind) (x :: xs))) b.
Proof.
  intros w a n m kind x xs Ha Hx Hxs b w' j m' Hw Hm. destruct (marker_head kind (i_num x)) as (c & t & E & Hc & Hd).
  assert (X : exists u, join [c_nl] (map (src_text a n kind) (x :: xs)) = rep a c_sp ++ c :: u /\ exists v, c :: u = marker kind (i_num x) ++ c_sp :: v).
  { cbn [map]. rewrite join_flat. unfold src_text at 1. rewrite <- !app_assoc. cbn [app]. rewrite E. cbn [app]. eexists. split; [reflexivity|]. eexists. reflexivity. }
  destruct X as (u & X & v & Xm). apply reads_at_tl. split; [rewrite X; now exists a, c, u|]. intros r Hr.
  assert (He : item_end kind a n r).
  { destruct Hr as [->|(z & _ & (Hj & i & d & s & Hi & Hd2 & ->) & ->)]; [now left|]. fold b in Hj. right. right. exists j, i, d, s. split; [lia|]. split; [lia|]. split; [exact Hd2|].
    unfold sepk. cbn [app]. now rewrite <- app_assoc. }
  assert (Hb : blank_tail r) by (destruct Hr as [->|(w0 & _ & _ & ->)]; [now left|apply sepk_tail]).
  rewrite Forall_forall in Hxs.
  assert (P1 : forall y r, In y (x :: xs) -> item_end kind a n r -> p_list_item rec (src_text a n kind y ++ r) = Ok (tl r) (kind_at kind (i_num y), ListItem (i_task y) (i_blocks y))).
  { intros y r' I He'. apply (item_parses w a n m); auto. }
  assert (L : p_list rec (join [c_nl] (map (src_text a n kind) (x :: xs)) ++ r) = Ok (tl r) (MkList kind (map (fun x => ListItem (i_task x) (i_blocks x)) (x :: xs)))).
  { unfold p_list. unfold bind.
    rewrite (many1_chain _ _ (p_list_item rec) (src_text a n kind) (fun y => (kind_at kind (i_num y), ListItem (i_task y) (i_blocks y))) (item_end kind a n) r (x :: xs)); auto.
    - cbn [map]. unfold ret. rewrite Hx. cbn [snd]. rewrite map_map. cbn [snd]. do 3 f_equal. destruct kind; cbn; [now rewrite N.add_0_r|reflexivity].
    - intros y I Y. unfold src_text in Y. apply app_eq_nil in Y as [_ Y]. apply app_eq_nil in Y as [_ Y]. discriminate.
    - intros y w0 I. right. left. cbn [tl] in I. destruct (Hxs y (or_intror I)) as (_ & Hf & _). exists (i_num y). unfold src_text. rewrite <- !app_assoc. eexists. split; [exact Hf|reflexivity].
    - unfold p_list_item. apply bind_e. now apply blank_item_e.
    - discriminate. }
  assert (P2 : exists s z, p_list_item rec (rep a c_sp ++ c :: u ++ r) = Ok s z).
  { change (c :: u ++ r) with ((c :: u) ++ r). rewrite app_assoc, <- X. clear -P1 He Hxs. destruct xs as [|y ys].
    - cbn [map join]. eexists _, _. apply P1; [now left|exact He].
    - cbn [map]. rewrite join_cons by discriminate. rewrite <- !app_assoc. cbn [app]. eexists _, _. apply P1; [now left|].
      right. left. destruct (Hxs y (or_intror (or_introl eq_refl))) as (_ & Hf & _). exists (i_num y). rewrite join_flat. unfold src_text at 1. rewrite <- !app_assoc. eexists. split; [exact Hf|reflexivity]. }
  assert (Nc : forall d, In d (lit "`~#>_") -> c <> d).
  { intros d I ->. destruct Hd as [Hd|Hd]; cbn in I; intuition (subst; try discriminate; cbn in Hd; intuition discriminate). }
  assert (T : p_thematic_break (rep a c_sp ++ c :: u ++ r) = Err).
  { destruct Hd as [Hd|Hd].
    - apply thematic_e; [exact Ha|exact Hc|..]; intros ->; discriminate.
    - assert (Y : t = []).
      { destruct kind as [n0|[]]; cbn [marker] in *; [exfalso|now injection E as _ <-..].
        destruct (dec_numeral (n0 + N.of_nat (i_num x))) as (_ & D & d & l & E1 & _). rewrite E1 in E, D. injection E as -> _. cbn [forallb] in D. apply andb_prop in D as [D _]. cbn in Hd. intuition (subst; discriminate). }
      subst t. rewrite E in Xm. injection Xm as ->. cbn [app].
      unfold p_thematic_break, p_unit. apply unit_e, lt_err. apply after_up3; [exact Ha|exact Hc|]. unfold terminated. apply bind_e. apply alt_err.
      assert (M : forall g, In g (lit "-_*") -> many_ge 3 (char_ g) (c :: c_sp :: v ++ r) = Err).
      { intros g Ig. unfold many_ge. rewrite Nat.add_comm. cbn [plus many_m_n]. unfold char_, satisfy at 1. destruct (N.eqb_spec g c) as [->|]; [|reflexivity].
        match goal with |- context [(?a =? ?b)] => destruct (Nat.eqb_spec a b) as [Y|_]; [cbn in Y; lia|] end. cbn [pred]. unfold satisfy. destruct (N.eqb_spec c c_sp) as [->|]; [|reflexivity]. cbn in Ig. intuition discriminate. }
      repeat (apply Forall_cons1; [apply M; cbn; tauto|]). constructor. }
  rewrite X in *. rewrite <- app_assoc in *. cbn [app] in *. rewrite alts_eq.
  rewrite or_e by (apply one_map_e; apply code_block_e; [exact Ha|exact Hc|apply Nc; cbn; tauto|apply Nc; cbn; tauto]).
  rewrite or_e by (apply one_map_e; apply heading_e; try assumption; left; apply Nc; cbn; tauto).
  rewrite or_e.
  2:{ apply one_e. apply no_paragraph; [exact Hc|]. do 4 apply Exists_cons_tl. apply Exists_cons_hd. destruct P2 as (s & z & P2). exists s, tt.
      cbn [conditional_unit default_config b_list]. unfold p_unit, value, pmap, bind, ret. now rewrite P2. }
  rewrite or_e by (apply one_e; apply pmap_e; exact T).
  unfold tail_alts.
  rewrite or_e by (apply alert_e; [exact Ha|exact Hc|apply Nc; cbn; tauto]).
  rewrite or_e by (apply one_map_e; apply blockquote_e; [exact Ha|exact Hc|apply Nc; cbn; tauto]).
  apply or_ok. now apply one_map_ok.
Qed.
End Lists.
