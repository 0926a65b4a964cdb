(** Every layout of a block of the fragment is read back as that block. *)
From Coq Require Import String Lia.
From Verif Require Export RoundUnwrap ManyFacts RoundView RoundHtml RoundSettle SpecRound.
Import ListNotations.
Open Scope list_scope.
Local Notation len := (@List.length _).

(** ** Alert markers *)
Definition calm_head (o : str) : Prop := exists k c t, o = rep k c_sp ++ c :: t /\ is_whitespace c = false /\ forall u, c :: t <> lit "[!" ++ u.
Lemma trim_end_prefix : forall p s, exists b, s = trim_end_by p s ++ b.
Proof.
  intros p s. induction s as [|c s (b & E)]; [exists []; reflexivity|]. cbn [trim_end_by].
  destruct (trim_end_by p s) as [|d t] eqn:E2.
  - destruct (p c); [exists (c :: s); reflexivity|exists s; reflexivity].
  - exists b. rewrite E at 1. reflexivity.
Qed.
Lemma trim_head : forall c t, is_whitespace c = false -> exists t' b, trim (c :: t) = c :: t' /\ t = t' ++ b.
Proof.
  intros c t H. unfold trim, trim_start. cbn [trim_start_by]. rewrite H. unfold trim_end. cbn [trim_end_by]. rewrite H.
  destruct (trim_end_prefix is_whitespace t) as (b & E). destruct (trim_end_by is_whitespace t) as [|d t1]; [exists [], t; now split|].
  exists (d :: t1), b. now split.
Qed.
Lemma trim_spaces : forall k s, trim (rep k c_sp ++ s) = trim s.
Proof. induction k as [|k IH]; intros s; [reflexivity|]. rewrite <- (IH s). reflexivity. Qed.
Lemma upper_ascii_ne : forall c d, In d (lit "[!") -> c <> d -> to_upper_ascii c <> d.
Proof.
  intros c d Hd H. unfold to_upper_ascii. destruct (is_lower c) eqn:E; [|exact H]. unfold is_lower in E. apply andb_prop in E as [E1 E2].
  apply N.leb_le in E1, E2. change (ch "a") with 97%N in *. change (ch "z") with 122%N in *. intro X. cbn in Hd. destruct Hd as [<-|[<-|[]]]; lia.
Qed.
Lemma upper_head : forall entities punct upper c t d u, upper_ok upper -> In d (lit "[!") ->
  to_uppercase (default_config entities punct upper) (c :: t) = d :: u -> c = d /\ u = to_uppercase (default_config entities punct upper) t.
Proof.
  intros entities punct upper c t d u Hu Hd. unfold to_uppercase. cbn [flat_map]. destruct (is_ascii c) eqn:E.
  - cbn [app]. intros X. injection X as X Y. split; [|now symmetry]. destruct (N.eq_dec c d) as [|N]; [assumption|]. now apply (upper_ascii_ne c d Hd) in N.
  - cbn [upper_table default_config]. destruct (Hu c E) as (x & t' & E' & N). rewrite E'. intros X. injection X as -> _. contradiction.
Qed.
Lemma no_alert_head : forall entities punct upper o, upper_ok upper -> calm_head o -> no_alert entities punct upper o.
Proof.
  intros entities punct upper o Hu (k & c & t & -> & Hw & Hc). unfold no_alert, parse_alert_marker. rewrite trim_spaces.
  destruct (trim_head c t Hw) as (t1 & b1 & -> & ->). destruct (trim_head c t1 Hw) as (t2 & b2 & -> & ->).
  unfold p_alert_marker, delimited, preceded. rewrite bind_e; [reflexivity|].
  apply tag_err. intros r E. change (lit "[!" ++ r) with (ch "[" :: ch "!" :: r) in E.
  apply (upper_head _ _ _ _ _ _ _ Hu) in E as [-> E]; [|cbn; auto]. destruct t2 as [|d t2]; [discriminate|]. symmetry in E.
  apply (upper_head _ _ _ _ _ _ _ Hu) in E as [-> _]; [|cbn; auto]. eapply Hc. reflexivity.
Qed.

Section Main.
Variables (entities : str -> option str) (punct : char -> bool) (upper : char -> str).
Variable udigit : char -> bool.
Variable config : md_config.
Local Notation cfg := (default_config entities punct upper).
Local Notation settled := (RoundBlocks.settled entities punct upper).
Local Notation reads := (RoundBlocks.reads entities punct upper).
Local Notation reads_at := (RoundBlocks.reads_at entities punct upper).

Lemma tight_solid : forall s, ~ In c_cr s -> tight s -> solid s.
Proof. intros s H [_ (t & c & -> & W)]. split; [exact H|]. exists t, c. split; [reflexivity|]. intros ->. discriminate. Qed.
Lemma calm_tight : forall o, tight o -> (forall t, o <> lit "[!" ++ t) -> calm_head o.
Proof. intros o [(c & t & E & Wc) _] Q. exists 0, c, t. cbn [rep repeat app]. rewrite <- E. auto. Qed.
(** what cannot be taken for a task *)
Lemma same_start : forall s s', same s s' -> ~ task_start s -> ~ task_start s'.
Proof.
  intros s s' H N (x & t & -> & T). apply N. apply same_sym in H. apply same_cons in H as (c1 & b1 & -> & F1 & H). apply same_cons in H as (c2 & b2 & -> & F2 & H). apply same_cons in H as (c3 & b3 & -> & F3 & H).
  apply flat_fixed in F1; [|discriminate..]. apply flat_fixed in F3; [|discriminate..]. subst. exists c2, b3. split; [reflexivity|]. intros c u ->. apply same_sym in H. apply same_cons in H as (c' & b' & -> & F & _).
  rewrite <- (flat_ws c c'); [|exact F]. now apply (T c' b').
Qed.
Lemma line_prefix : forall o, exists b, stops b /\ o = head_line o ++ b.
Proof.
  intros o. exists (flat_map (fun l => c_nl :: l) (tl (split_lines o))). split; [|apply lines_flat]. destruct (tl (split_lines o)); [exact I|reflexivity].
Qed.
Lemma calm_line : forall o, (exists c t, o = c :: t /\ inked c) -> ~ task_start o -> no_task_line (head_line o).
Proof.
  intros o (c & t & -> & Hc) N. destruct (line_prefix (c :: t)) as (b & Hb & E). set (l := head_line (c :: t)) in *. split.
  - destruct l as [|d l]; [|injection E as <- E; exists c, l; now split]. cbn [app] in E. subst b. cbn in Hb. subst c. destruct Hc as [[X _] _]. now destruct X.
  - intros x u El. rewrite El in E. destruct u as [|y u].
    + exfalso. apply N. exists x, b. split; [exact E|]. intros d v ->. cbn in Hb. subst d. reflexivity.
    + exists y, u. split; [reflexivity|]. apply white_inked. destruct (is_whitespace y) eqn:W; [|reflexivity]. exfalso. apply N. exists x. eexists. split; [exact E|]. intros d v Ed. cbn [app] in Ed. now injection Ed as <- _.
Qed.
Lemma head_calm : forall c o, inked c -> c <> ch "[" -> (exists t, o = c :: t) -> no_task_line (head_line o).
Proof.
  intros c o Hc N (t & ->). apply calm_line; [now exists c, t|]. intros (x & u & E & _). injection E as -> _. now apply N.
Qed.
(** the content of a paragraph *)
Lemma rich_rewrap : forall p l l', rich_paragraph udigit p l -> rewrap udigit l l' -> let o := source l' in
  rich_paragraph udigit p l' /\ unwrap_inlines l' = unwrap_inlines l /\ settled o /\ inline_many1 cfg o = Ok [] l' /\ solid o /\ (p = Quote -> calm_head o) /\
    tight o /\ same (source l) (source l') /\ o = source l'.
Proof.
  intros p l l' (R & W & O & T & Q & B) RW. cbv zeta.
  pose proof (rewrap_rich udigit l R l' RW) as R'. pose proof (rewrap_wraps udigit l l' RW W) as W'. pose proof (rewrap_opens udigit l l' RW O) as O'.
  pose proof (rewrap_source udigit l l' RW) as SS. pose proof (same_tight _ _ SS T) as T'. pose proof (rewrap_unwrap udigit l l' RW) as U.
  assert (Q' : p = Quote -> forall t, source l' <> lit "[!" ++ t).
  { intros E. apply (same_prefix (lit "[!") (source l)); [|exact SS|now apply Q]. repeat constructor; discriminate. }
  assert (B' : in_item p -> ~ In ILineBreak (flat_map inline_preorder l')) by (intros E; apply (no_break_unwrap l); auto).
  split; [exact (conj R' (conj W' (conj O' (conj T' (conj Q' B')))))|]. split; [exact U|]. split; [|split; [|split; [|split; [|split; [|split]]]]].
  - apply rich_settled; auto; [|now apply tight_ends]. apply (wrap_opens udigit); [exact W'|]. now apply (rewrap_breaks udigit l).
  - apply rich_parses; [exact R'|]. now apply tight_ne.
  - apply tight_solid; [now apply rich_no_cr|exact T'].
  - intros E. apply calm_tight; [exact T'|now apply Q'].
  - exact T'.
  - exact SS.
  - reflexivity.
Qed.
Lemma rich_laid : forall p l o, rich_paragraph udigit p l -> laid None (at_ 0 (inlines_view udigit true l)) o ->
  exists l', rich_paragraph udigit p l' /\ unwrap_inlines l' = unwrap_inlines l /\ settled o /\ inline_many1 cfg o = Ok [] l' /\ solid o /\ (p = Quote -> calm_head o) /\
    tight o /\ same (source l) (source l') /\ o = source l'.
Proof.
  intros p l o HP L. destruct (laid_rewrap udigit l (proj1 HP) o L) as (l' & RW & ->). exists l'. now apply rich_rewrap.
Qed.
(** ATX headings *)
Lemma rich_atx : forall l, rich l -> tight (source l) -> ~ In ILineBreak (flat_map inline_preorder l) ->
  let o := source (unwrap_inlines l) in let l' := unwrap_inlines l in
  flat_map piece_text (inlines_view udigit false l) = o /\ rich l' /\ tight o /\ ~ In ILineBreak (flat_map inline_preorder l') /\ unwrap_inlines l' = unwrap_inlines l /\
  inline_many0 cfg o = Ok [] l' /\ solid o /\ (exists x r, o = x :: r /\ inked x) /\ Forall line_char o.
Proof.
  intros l R T N o l'. pose proof (rewrap_flat udigit l R) as RW. pose proof (rewrap_rich udigit l R l' RW) as R'.
  pose proof (same_tight _ _ (rewrap_source udigit l l' RW) T) as T'. fold o in T'.
  assert (N' : ~ In ILineBreak (flat_map inline_preorder l')).
  { unfold l'. rewrite inlines_unwrap. intro I. apply in_map_iff in I as (i & E & I). destruct i as [| | | |[]|[]| | | | | | |]; try discriminate; contradiction. }
  pose proof (rich_no_cr _ R') as NC.
  assert (NN : ~ In c_nl o).
  { apply rich_no_nl; [exact R'|]. split; [exact N'|]. intros t I J. unfold l' in I. rewrite inlines_unwrap in I. apply in_map_iff in I as (i & E & _).
    destruct i as [s| | | |[]|[]| | | | | | |]; try discriminate E. injection E as <-. unfold unwrap_text in J. apply in_map_iff in J as (c & E & _). destruct (N.eqb_spec c c_nl); [discriminate|contradiction]. }
  split; [now apply one_line_source|]. split; [exact R'|]. split; [exact T'|]. split; [exact N'|]. split; [now apply (rewrap_unwrap udigit)|].
  split; [apply rich_parses; [exact R'|now apply tight_ne]|]. split; [now apply tight_solid|]. split; [now apply tight_inked|].
  apply Forall_forall. intros x I. split; intros ->; contradiction.
Qed.

Lemma last_line : forall a c, c <> c_nl -> exists ls l, split_lines (a ++ [c]) = ls ++ [l ++ [c]].
Proof.
  intros a c H. induction a as [|x a (ls & l & E)]; cbn [app split_lines].
  - destruct (N.eqb_spec c c_nl); [contradiction|]. exists [], []. reflexivity.
  - rewrite E. destruct (N.eqb x c_nl); [exists ([] :: ls), l; reflexivity|]. destruct ls as [|l1 ls]; [exists [], (x :: l)|exists ((x :: l1) :: ls), l]; reflexivity.
Qed.
Lemma pre_solid : forall p o, ~ In c_cr p -> solid o -> solid (join [c_nl] (map (app p) (split_lines o))).
Proof.
  intros p o Hp So. pose proof (solid_lines o So) as SL. destruct So as [S1 (a & x & S2 & S3)]. split.
  - clear - SL Hp. induction (split_lines _) as [|l ls IH]; [auto|]. inversion SL as [|? ? L1 L2]; subst.
    assert (X : ~ In c_cr (p ++ l)).
    { intro J. apply in_app_or in J as [J|J]; [contradiction|]. rewrite Forall_forall in L1. now destruct (L1 _ J). }
    destruct ls as [|l2 ls]; [exact X|]. cbn [map]. rewrite join_cons by discriminate. intro J.
    apply in_app_or in J as [J|[J|J]]; [contradiction|discriminate|]. now apply IH.
  - destruct (last_line a x S3) as (ls & l & E). rewrite S2, E, map_app. cbn [map]. destruct ls as [|l1 ls].
    + exists (p ++ l), x. split; [|exact S3]. cbn. now rewrite app_assoc.
    + rewrite join_app by discriminate. set (z := join [c_nl] (map (app p) (l1 :: ls))). cbn [join]. exists (z ++ [c_nl] ++ p ++ l), x. split; [|exact S3]. now rewrite <- !app_assoc.
Qed.

Lemma pre_lines : forall k o, split_lines (pre k o) = map (app (rep k c_sp)) (split_lines o).
Proof.
  intros k o. apply join_split; [intro E; apply map_eq_nil in E; now apply split_ne in E|]. apply Forall_map. eapply Forall_impl; [|apply split_free]. intros l Hl J. apply in_app_or in J as [J|J]; [apply repeat_spec in J; discriminate|contradiction].
Qed.
Lemma solid_line : forall l, l <> [] -> Forall line_char l -> solid l.
Proof.
  intros l N F. split; [now apply line_no_cr|]. destruct (exists_last N) as (a & c & ->). exists a, c. split; [reflexivity|]. apply Forall_app in F as [_ F]. inversion F as [|? ? [X _] _]; subst. exact X.
Qed.
(** the lines of an alert *)
Lemma alert_lines : forall os, os <> [] -> Forall dense os ->
  join [c_nl] (map (fun l => tl (alert_text l)) (split_lines (join [c_nl; c_nl] os))) = join (sepk 0) (map (pre 1) os).
Proof.
  assert (D : forall o, dense o -> map (fun l => tl (alert_text l)) (split_lines o) = map (app (rep 1 c_sp)) (split_lines o)).
  { intros o Do. apply map_ext_in. intros l I. unfold dense in Do. rewrite Forall_forall in Do. unfold alert_text. now rewrite inky_text by now apply Do. }
  intros os N F. induction F as [|o os Ho F IH]; [congruence|]. destruct os as [|o2 os].
  - cbn [join map]. rewrite D by exact Ho. reflexivity.
  - rewrite (join_cons _ o) by discriminate. cbn [app]. rewrite split_app2, map_app, D by exact Ho. change (c_nl :: join [c_nl; c_nl] (o2 :: os)) with ([] ++ c_nl :: join [c_nl; c_nl] (o2 :: os)).
    rewrite split_app by (intros []). cbn [map]. rewrite join_app; [|intro E; apply map_eq_nil in E; now apply split_ne in E|discriminate].
    rewrite join_cons by (intro E; apply map_eq_nil in E; now apply split_ne in E). rewrite IH by discriminate. fold (pre 1 o). cbn [map]. rewrite (join_cons (sepk 0) (pre 1 o)) by discriminate. reflexivity.
Qed.

(** ** What a layout of a block is read as *)
Definition follow_width (p : place) (b : block) : nat := margin p + list_indent config b.
Definition first_col (p : place) : nat := margin p + md_spaces_before_list_item config.
Definition good (p : place) (b : block) (o : str) : Prop :=
  (p <> Top -> solid o) /\ (~ is_indented b -> exists i c t, i <= md_spaces_before_list_item config /\ inked c /\ o = rep i c_sp ++ c :: t) /\
  (p = Quote -> calm_head o) /\ (in_item p -> steady o /\ ~ is_indented b) /\ (compact b -> dense o) /\
  exists b', plain_block udigit config p b' /\ unwrap_block b' = unwrap_block b /\
    (begins_item config b -> begins_item config b' /\ (in_item p -> no_task_line (head_line o))) /\
    reads_at (follow_width p) (between_blocks p) (first_col p) (pre (margin p) o) b'.
(** the usual case *)
Lemma good_at : forall p b o b' c t, solid o -> o = c :: t -> is_whitespace c = false -> (p = Quote -> forall u, o <> lit "[!" ++ u) -> (in_item p -> steady o /\ ~ is_indented b) -> (compact b -> dense o) ->
  plain_block udigit config p b' -> unwrap_block b' = unwrap_block b ->
  (begins_item config b -> begins_item config b' /\ (in_item p -> no_task_line (head_line o))) -> reads (pre (margin p) o) b' -> good p b o.
Proof.
  intros p b o b' c t So E W Q St De P U B R. split; [intros _; exact So|]. split; [intros _; exists 0, c, t; split; [lia|split; [now apply white_inked|exact E]]|].
  split; [intros Ep; exists 0, c, t; split; [exact E|split; [exact W|rewrite <- E; now apply Q]]|]. split; [exact St|]. split; [exact De|].
  exists b'. split; [exact P|]. split; [exact U|]. split; [exact B|]. now apply reads_anywhere.
Qed.
Lemma margin_small : forall p, margin p <= 3. Proof. intros []; cbn; lia. Qed.
Lemma Forall_imp2 : forall A B (P : A -> Prop) (Q R : A -> B -> Prop) l1 l2, (forall a b, P a -> Q a b -> R a b) -> Forall P l1 -> Forall2 Q l1 l2 -> Forall2 R l1 l2.
Proof. intros A B P Q R l1 l2 H F F2. induction F2; [constructor|]. inversion F; subst. constructor; auto. Qed.
(** properties that do not depend on line breaks in texts *)
Lemma is_list_unwrap : forall b, is_list (unwrap_block b) <-> is_list b.
Proof. intros [c|[]| |bs|[]|c|s|[]|[]|[]|[]|]; reflexivity. Qed.
Lemma is_indented_unwrap : forall b, is_indented (unwrap_block b) <-> is_indented b.
Proof. intros [c|[]| |bs|[]|c|s|[]|[]|[]|[]|]; reflexivity. Qed.
Lemma list_indent_unwrap : forall b, list_indent config (unwrap_block b) = list_indent config b.
Proof. intros [c|[]| |bs|[]|c|s|[]|[]|[]|[]|]; try reflexivity. cbn. now rewrite map_length. Qed.
Lemma compact_list : forall kind items, compact (BList (MkList kind items)) <-> Forall (fun it => len (li_blocks it) <= 1 /\ Forall compact (li_blocks it)) items.
Proof.
  intros kind items. cbn [compact]. rewrite fold_Forall. split; intros F; (eapply Forall_impl; [|exact F]); intros it; cbv beta; rewrite fold_Forall; auto.
Qed.
Lemma compact_unwrap : forall b, compact (unwrap_block b) <-> compact b.
Proof.
  induction b as [c|h| |bs IH|kind items IH|c|s|d|t|f bs IH|g bs IH|] using block_ind'; try reflexivity; try (now destruct h); try (now destruct d); try (now destruct t).
  cbn [unwrap_block]. rewrite !compact_list, Forall_map. cbn [li_blocks]. rewrite Forall_forall in IH. rewrite !Forall_forall. split; intros F it I; destruct (F it I) as [F1 F2]; rewrite map_length in *; (split; [exact F1|]); specialize (IH it I);
    rewrite Forall_forall in IH; rewrite ?Forall_map, !Forall_forall in *; intros x X; [rewrite <- IH by exact X|rewrite IH by exact X]; now apply F2.
Qed.
Lemma orderly_unwrap : forall p bs bs', map unwrap_block bs' = map unwrap_block bs -> orderly config p bs -> orderly config p bs'.
Proof.
  intros p bs bs' E H a b c d ->. rewrite map_app in E. cbn [map] in E. symmetry in E. apply map_eq_app in E as (a0 & l & -> & _ & E).
  destruct l as [|b0 [|c0 d0]]; try discriminate. cbn [map] in E. injection E as E1 E2 _.
  intros L. rewrite <- is_list_unwrap, <- E1, is_list_unwrap in L. destruct (H _ _ _ _ eq_refl L) as [X Y]. split.
  - rewrite <- list_indent_unwrap, <- E1, list_indent_unwrap. exact X.
  - rewrite <- is_indented_unwrap, <- E2, is_indented_unwrap. exact Y.
Qed.
Lemma orderly_tail : forall p b bs, orderly config p (b :: bs) -> orderly config p bs.
Proof. intros p b bs H a x c d ->. apply (H (b :: a) x c d). reflexivity. Qed.
(** a sequence of blocks *)
Lemma plain_separated : forall p bs, Forall (plain_block udigit config p) bs -> md_empty_line_before_list config = true \/ Forall (fun x => match x with BList _ => False | _ => True end) bs.
Proof.
  intros p bs F. induction F as [|b bs H F [IH|IH]]; [right; constructor|now left|]. destruct b as [c|h| |q|l|c|s|d|t|f|g|]; try (right; constructor; [exact I|exact IH]).
  destruct l as [k items]. left. apply H.
Qed.
Lemma goods : forall p bs, Forall (plain_block udigit config p) bs ->
  Forall (fun b => forall p o, plain_block udigit config p b -> laid None (block_view upper udigit config 0 b) o -> good p b o) bs ->
  forall o, laid None (blocks_pieces config 0 (map (fun x => (x, block_view upper udigit config 0 x)) bs)) o ->
  exists os, o = join [c_nl; c_nl] os /\ Forall2 (good p) bs os.
Proof.
  intros p bs Hp IH o L. apply blocks_split in L.
  - destruct L as (os & F & ->). exists os. split; [reflexivity|]. clear -Hp IH F. revert os F. induction bs as [|b bs IHb]; intros os F; inversion F; subst; [constructor|].
    inversion Hp; subst. inversion IH; subst. constructor; auto.
  - destruct (plain_separated p bs Hp) as [H|H]; [now left|right]. apply Forall_map. exact H.
  - apply Forall_map. eapply Forall_impl; [|exact Hp]. intros b Hb. cbn [snd]. exact (plain_closed upper udigit config b p Hb 0).
Qed.
Lemma goods_reads : forall p bs os, orderly config p bs -> Forall2 (good p) bs os ->
  exists bs', Forall (plain_block udigit config p) bs' /\ map unwrap_block bs' = map unwrap_block bs /\ orderly config p bs' /\
    Forall2 (reads_at (follow_width p) (between_blocks p) (first_col p)) (map (pre (margin p)) os) bs' /\
    linked (follow_width p) (between_blocks p) (first_col p) bs' (map (pre (margin p)) os) /\
    (forall task, first_block config task bs -> first_block config task bs' /\ (in_item p -> task = None -> match os with [] => True | o :: _ => no_task_line (head_line o) end)).
Proof.
  intros p bs os HO F.
  enough (exists bs', Forall (plain_block udigit config p) bs' /\ map unwrap_block bs' = map unwrap_block bs /\
    Forall2 (reads_at (follow_width p) (between_blocks p) (first_col p)) (map (pre (margin p)) os) bs' /\
    linked (follow_width p) (between_blocks p) (first_col p) bs' (map (pre (margin p)) os) /\
    (forall task, first_block config task bs -> first_block config task bs' /\ (in_item p -> task = None -> match os with [] => True | o :: _ => no_task_line (head_line o) end)))
    as (bs' & P & U & R & L & B) by (exists bs'; split; [exact P|]; split; [exact U|]; split; [now apply (orderly_unwrap p bs)|]; auto).
  induction F as [|b o bs os (_ & _ & _ & _ & _ & b' & P & E & B & R) F IH].
  - exists []. cbn [map]. split; [constructor|]. split; [reflexivity|]. split; [constructor|]. split; [constructor|]. intros [t|] _; (split; [exact I|]); intros; exact I.
  - destruct IH as (bs' & P2 & E2 & R2 & L2 & _); [now apply orderly_tail in HO|]. exists (b' :: bs'). cbn [map].
    split; [now constructor|]. split; [congruence|]. split; [now constructor|]. split.
    + destruct F as [|c o2 bs os (_ & Hc & _) F].
      * destruct bs'; [|discriminate]. apply linked_one.
      * destruct bs' as [|c' bs']; [discriminate|]. cbn [map] in *. apply linked_cons; [|exact L2]. unfold follows.
        assert (X : is_list b' -> between_blocks p <= follow_width p b' /\ exists i d t, i <= first_col p /\ inked d /\ pre (margin p) o2 = rep i c_sp ++ d :: t).
        { intros Lb. rewrite <- is_list_unwrap, E, is_list_unwrap in Lb. destruct (HO [] b c bs eq_refl Lb) as [X Y]. split.
          - unfold follow_width. rewrite <- list_indent_unwrap, E, list_indent_unwrap. exact X.
          - destruct (Hc Y) as (i & d & t & Hi & Hd & ->). rewrite pre_ind, ind_app, (ind_free _ (rep i c_sp)) by (intro J; apply repeat_spec in J; discriminate).
            rewrite ind_cons by (intros ->; destruct Hd as [[Z _] _]; now destruct Z). exists (margin p + i), d. eexists. split; [unfold first_col; lia|]. split; [exact Hd|].
            rewrite app_assoc. unfold rep. now rewrite <- repeat_app. }
        destruct b'; try exact I. now apply X.
    + intros [t|] Hb; [split; [exact I|discriminate]|]. cbn [first_block] in *. destruct (B Hb) as [B1 B2]. split; [exact B1|]. intros Hi _. now apply B2.
Qed.
Lemma goods_solid : forall p bs os, p <> Top -> Forall2 (good p) bs os -> Forall solid os.
Proof. intros p bs os N. induction 1 as [|b o bs os (H & _) F IH]; constructor; auto. Qed.

Lemma lines_none : forall l, flat_map piece_text [Word l] = l. Proof. intros. cbn. apply app_nil_r. Qed.
Lemma first_line_head : forall o, calm_head o -> calm_head (hd [] (split_lines o)).
Proof.
  intros o (k & c & t & -> & Hw & Hc). destruct (line_prefix (rep k c_sp ++ c :: t)) as (b & Hb & E). unfold head_line in E. fold (head_line (rep k c_sp ++ c :: t)) in *.
  change (hd [] (split_lines (rep k c_sp ++ c :: t))) with (head_line (rep k c_sp ++ c :: t)). set (l := head_line _) in *. clearbody l.
  assert (X : exists v, l = rep k c_sp ++ c :: v /\ t = v ++ b).
  { revert l E. induction k as [|k IH]; intros l E; cbn [rep repeat app] in *.
    - destruct l as [|d l]; [cbn in E; subst b; cbn in Hb; subst c; discriminate|]. injection E as <- ->. now exists l.
    - destruct l as [|d l]; [cbn in E; subst b; discriminate|]. injection E as <- E. destruct (IH l E) as (v & -> & ->). now exists v. }
  destruct X as (v & -> & ->). exists k, c, v. split; [reflexivity|]. split; [exact Hw|]. intros u Eu. apply (Hc (u ++ b)). change (c :: v ++ b) with ((c :: v) ++ b). rewrite Eu. now rewrite <- app_assoc.
Qed.
Hypothesis Hupper : upper_ok upper.
Lemma head_line_app : forall a b, head_line (a ++ c_nl :: b) = head_line a.
Proof. intros a b. unfold head_line. rewrite split_app2. pose proof (split_ne a). now destruct (split_lines a). Qed.
Lemma list_of : forall A (P : nat -> A -> Prop) n, (forall j, j < n -> exists x, P j x) -> exists xs, len xs = n /\ forall j x, nth_error xs j = Some x -> P j x.
Proof.
  intros A P n. induction n as [|n IH]; intros H; [exists []; split; [reflexivity|intros [] ? E; discriminate]|].
  destruct IH as (xs & L & F); [intros j J; apply H; lia|]. destruct (H n) as (x & X); [lia|]. exists (xs ++ [x]). split; [rewrite app_length; cbn; lia|].
  intros j y E. destruct (Nat.lt_ge_cases j n) as [J|J]; [rewrite nth_error_app1 in E by lia; now apply F|]. rewrite nth_error_app2 in E by lia.
  destruct (j - len xs) as [|k] eqn:D; [|destruct k; discriminate]. injection E as <-. replace j with n by lia. exact X.
Qed.
Lemma map_nth_ext : forall A B C (f : A -> C) (g : B -> C) la lb, len la = len lb -> (forall j a b, nth_error la j = Some a -> nth_error lb j = Some b -> f a = g b) -> map f la = map g lb.
Proof.
  intros A B C f g la. induction la as [|a la IH]; intros [|b lb] L H; try discriminate; [reflexivity|]. cbn [map]. f_equal; [now apply (H 0)|]. apply IH; [now injection L|]. intros j x y. apply (H (S j)).
Qed.
Lemma Forall_nth : forall A (P : A -> Prop) l, (forall j x, nth_error l j = Some x -> P x) -> Forall P l.
Proof. intros A P l H. apply Forall_forall. intros x I. apply In_nth_error in I as (j & E). now apply (H j). Qed.
Lemma good_parts : forall n bs os, Forall2 (good (Item n)) bs os -> Forall steady os /\ Forall (fun o => starts_line (head_line o)) os.
Proof.
  intros n bs os F. induction F as [|b o bs os (So & H1 & _ & H2 & _) F [I1 I2]]; [split; constructor|]. destruct H2 as [H2 H3]; [now exists n|]. split; constructor; auto.
  destruct (H1 H3) as (i & c & t & _ & Hc & ->). destruct (line_prefix (rep i c_sp ++ c :: t)) as (b1 & Hb & E). revert E. generalize (head_line (rep i c_sp ++ c :: t)). intros l E.
  assert (X : exists v, l = rep i c_sp ++ c :: v).
  { clear -E Hb Hc. revert l E. induction i as [|k IH]; intros l E; cbn [rep repeat app] in *.
    - destruct l as [|d l]; [cbn in E; subst b1; cbn in Hb; subst c; destruct Hc as [[X _] _]; now destruct X|]. injection E as <- _. now exists l.
    - destruct l as [|d l]; [cbn in E; subst b1; discriminate|]. injection E as <- E. destruct (IH l E) as (v & ->). now exists v. }
  destruct X as (v & ->). now exists i, c, v.
Qed.
(** the content of an item *)
Lemma item_good : forall q ci it aft body, in_item q -> Forall (fun b => forall p o, plain_block udigit config p b -> laid None (block_view upper udigit config 0 b) o -> good p b o) (li_blocks it) ->
  plain_item udigit config q it -> laid aft (blocks_pieces config ci (map (fun x => (x, block_view upper udigit config ci x)) (li_blocks it))) body ->
  exists os, body = ind ci (join [c_nl; c_nl] os) /\ Forall2 (good q) (li_blocks it) os.
Proof.
  intros q ci it aft body Hq IH (_ & _ & Hp) L.
  assert (E : blocks_pieces config ci (map (fun x => (x, block_view upper udigit config ci x)) (li_blocks it)) = shift ci (blocks_pieces config 0 (map (fun x => (x, block_view upper udigit config 0 x)) (li_blocks it)))).
  { rewrite shift_blocks, map_map, Nat.add_0_r. cbn [fst snd]. f_equal. apply map_ext. intros b. rewrite <- view_shift. now rewrite Nat.add_0_r. }
  assert (L2 : laid None (blocks_pieces config ci (map (fun x => (x, block_view upper udigit config ci x)) (li_blocks it))) body).
  { destruct (li_blocks it) as [|b bs] eqn:Eb; [cbn [map blocks_pieces] in *; inversion L; subst; constructor|]. eapply laid_closed; [|exact L]. apply closed_blocks; [discriminate|].
    apply Forall_map. eapply Forall_impl; [|exact Hp]. intros b0 Hb. cbn [snd]. exact (proj1 (plain_closed upper udigit config b0 q Hb ci)). }
  rewrite E in L2. apply laid_shift in L2 as (o' & L3 & ->).
  - destruct (goods q (li_blocks it) Hp IH o' L3) as (os & -> & G). now exists os.
  - apply blocks_one_line. apply Forall_map. eapply Forall_impl; [|exact Hp]. intros b Hb. cbn [snd]. destruct Hq as (n & ->). now apply (plain_one_line upper udigit config b n).
Qed.
Lemma list_good : forall kind items p o,
  Forall (fun it => Forall (fun b => forall p o, plain_block udigit config p b -> laid None (block_view upper udigit config 0 b) o -> good p b o) (li_blocks it)) items ->
  plain_block udigit config p (BList (MkList kind items)) -> laid None (block_view upper udigit config 0 (BList (MkList kind items))) o -> good p (BList (MkList kind items)) o.
Proof.
  intros kind items p o IH Hp L. apply plain_list in Hp as (He & Hs & Hne & Hm & Hn & Hi). cbn [block_view] in L.
  set (s := md_spaces_before_list_item config) in *. set (ci := content_indent config kind (len items)) in *. cbn [plus] in L.
  apply items_split0 in L as (ls & -> & Ll & H). rewrite map_length in Ll. set (q := item_place config p kind (len items)) in *. change q with (Item (margin p + ci)) in *. clear q. set (q := Item (margin p + ci)) in *.
  assert (Hq : in_item q) by now exists (margin p + ci).
  set (P := fun (j : nat) (x : item_src) => exists it, nth_error items j = Some it /\ nth_error ls j = Some (src_text s ci kind x) /\ i_num x = j /\ i_task x = li_task it /\
     Forall2 (good q) (li_blocks it) (i_texts x) /\ Forall (plain_block udigit config q) (i_blocks x) /\ map unwrap_block (i_blocks x) = map unwrap_block (li_blocks it) /\ orderly config q (i_blocks x) /\
     Forall2 (reads_at (follow_width q) (between_blocks q) (first_col q)) (i_texts x) (i_blocks x) /\ linked (follow_width q) (between_blocks q) (first_col q) (i_blocks x) (i_texts x) /\
     first_block config (i_task x) (i_blocks x) /\ (i_task x = None -> match i_texts x with [] => True | o :: _ => no_task_line (head_line o) end)).
  destruct (list_of _ P (len items)) as (xs & Lx & Px).
  { intros j J. destruct (nth_error items j) as [it|] eqn:Ei; [|apply nth_error_None in Ei; lia]. pose proof (nth_error_In _ _ Ei) as Ii. rewrite Forall_forall in IH, Hi. specialize (IH it Ii). specialize (Hi it Ii).
    edestruct (H j) as (body & Eb & Lb); [rewrite nth_error_map, Ei; reflexivity|]. apply (item_good q) in Lb as (os & -> & G); [|exact Hq|exact IH|exact Hi].
    destruct Hi as (Hf & Ho & Hb). destruct (goods_reads q _ os Ho G) as (bs' & B1 & B2 & B3 & B4 & B5 & B6). destruct (B6 _ Hf) as [B7 B8].
    change (margin q) with 0 in *. assert (Z : map (pre 0) os = os) by (erewrite map_ext; [apply map_id|apply pre_0]). rewrite Z in *.
    exists (Src j (li_task it) os bs'). exists it. cbn [i_num i_task i_texts i_blocks].
    split; [exact Ei|]. split; [exact Eb|]. do 2 (split; [reflexivity|]). split; [exact G|]. split; [exact B1|]. split; [exact B2|]. split; [exact B3|]. split; [exact B4|]. split; [exact B5|]. split; [exact B7|]. intros T. now apply B8. }
  assert (E : ls = map (src_text s ci kind) xs).
  { rewrite <- (map_id ls) at 1. apply map_nth_ext; [congruence|]. intros j a b Ea Eb. destruct (Px j b Eb) as (it & _ & X & _). congruence. }
  assert (Hx : xs <> []) by (intros ->; destruct items; [congruence|discriminate]).
  assert (Pf : Forall (fun x => exists j, j < len items /\ nth_error xs j = Some x /\ P j x) xs).
  { apply Forall_nth. intros j x Ej. exists j. split; [rewrite <- Lx; apply nth_error_Some; congruence|]. split; [exact Ej|now apply Px]. }
  subst ls.
  assert (Fs : Forall (fun x => Forall solid (i_texts x)) xs).
  { eapply Forall_impl; [|exact Pf]. intros x (j & _ & _ & it & _ & _ & _ & _ & G & _). now apply goods_solid in G. }
  assert (Ft : Forall (fun x => Forall steady (i_texts x)) xs).
  { eapply Forall_impl; [|exact Pf]. intros x (j & _ & _ & it & _ & _ & _ & _ & G & _). apply good_parts in G. apply G. }
  assert (Hci : 0 < ci) by (unfold ci, content_indent; lia).
  set (b' := BList (MkList kind (map (fun x => ListItem (i_task x) (i_blocks x)) xs))).
  assert (HH : exists c t, join [c_nl] (map (src_text s ci kind) xs) = rep s c_sp ++ c :: t /\ inked c /\ (is_digit c = true \/ In c (lit "-*+"))).
  { destruct xs as [|x xs]; [congruence|]. cbn [map]. rewrite join_flat. unfold src_text at 1. destruct (marker_head kind (i_num x)) as (c & t & Em & Hc & Hd). rewrite Em. rewrite <- !app_assoc. cbn [app]. exists c. eexists. split; [reflexivity|]. now split. }
  destruct HH as (c & t & HE & Hc & Hd).
  assert (Hb : c <> ch "[") by (intros ->; destruct Hd as [Hd|Hd]; [discriminate|cbn in Hd; intuition discriminate]).
  assert (Wc : is_whitespace c = false).
  { destruct Hd as [Hd|Hd]; [|cbn in Hd; destruct Hd as [<-|[<-|[<-|[]]]]; reflexivity]. unfold is_digit in Hd. apply andb_prop in Hd as [D1 D2]. apply N.leb_le in D1, D2. change (ch "0") with 48%N in *. change (ch "9") with 57%N in *.
    assert (D : c = 48%N \/ c = 49%N \/ c = 50%N \/ c = 51%N \/ c = 52%N \/ c = 53%N \/ c = 54%N \/ c = 55%N \/ c = 56%N \/ c = 57%N) by (clear -D1 D2; unfold char in *; lia). repeat (destruct D as [->|D]; [reflexivity|]). now subst c. }
  split; [intros _; now apply solid_list|]. split; [intros _; exists s, c, t; split; [apply Nat.le_refl|now split]|].
  split; [intros _; exists s, c, t; split; [exact HE|]; split; [exact Wc|intros u X; injection X as -> _; now apply Hb]|].
  split; [intros _; split; [now apply steady_list|intros []]|]. split.
  { intros C. rewrite compact_list, Forall_forall in C. apply dense_list; [exact Hx|]. eapply Forall_impl; [|exact Pf]. intros x (j & _ & _ & it & Ei & _ & _ & _ & G & _). destruct (C it (nth_error_In _ _ Ei)) as [C1 C2]. split.
    - replace (len (i_texts x)) with (len (li_blocks it)); [exact C1|]. clear -G. induction G; cbn; congruence.
    - clear -G C2. induction G as [|b1 o1 bs1 os1 (_ & _ & _ & _ & X & _) G IHG]; [constructor|]. inversion C2; subst. constructor; auto. }
  exists b'. split; [|split; [|split]].
  - unfold b'. apply plain_list. rewrite !map_length, Lx. fold s. split; [exact He|]. split; [exact Hs|]. split; [intro X; apply map_eq_nil in X; contradiction|]. split; [exact Hm|]. split; [exact Hn|].
    apply Forall_map. eapply Forall_impl; [|exact Pf]. intros x (j & _ & _ & it & _ & _ & _ & _ & _ & B1 & _ & B3 & _ & _ & B7 & _). split; [exact B7|]. split; [exact B3|exact B1].
  - unfold b'. cbn [unwrap_block]. f_equal. f_equal. rewrite map_map. cbn [li_task li_blocks]. apply map_nth_ext; [exact Lx|]. intros j x it Ex Ei. destruct (Px j x Ex) as (it' & Ei' & _ & _ & Et & _ & _ & U & _).
    assert (it' = it) by congruence. subst it'. now rewrite Et, U.
  - cbn [begins_item]. unfold b'. intros Z. split; [exact Z|]. intros _. rewrite HE. apply (head_calm c); [exact Hc|exact Hb|]. fold s in Z. rewrite Z. now exists t.
  - rewrite pre_list by exact Hx. destruct xs as [|x xs]; [congruence|]. unfold b'.
    apply (reads_list entities punct upper (follow_width q) (margin p + s) (margin p + ci) (first_col q) kind x xs Hs).
    + destruct (Px 0 x eq_refl) as (it & _ & _ & X & _). exact X.
    + eapply Forall_impl; [|exact Pf]. intros y (j & Hj & _ & it & Ei & _ & Ny & Ty & G & B1 & B2 & B3 & B4 & B5 & B7 & B8). split; [|split; [|split; [|split; [|split]]]].
      * rewrite Ny. unfold ci, content_indent. fold s. rewrite (Hm j Hj). lia.
      * rewrite Ny. unfold number_fits. destruct kind; [|exact I]. cbn [numbers_fit] in Hn. lia.
      * pose proof G as GS0; apply goods_solid in GS0; [|discriminate]; pose proof GS0 as So. destruct (i_texts y) as [|o os]; [split; [constructor|now left]|]. split; [|intros T; right; now apply B8]. inversion So; subst.
        match goal with H : solid o |- _ => apply solid_lines in H; rewrite split_head in H; now inversion H end.
      * apply steady_item; [|now apply good_parts in G]. apply good_parts in G as G'. destruct G' as [G1 _]. pose proof G as GS0; apply goods_solid in GS0; [|discriminate]; pose proof GS0 as So. rewrite Forall_forall in G1, So. apply Forall_forall. intros o I. split; [now apply G1|]. now apply solid_lines, So.
      * exact B4.
      * exact B5.
    + unfold follow_width. cbn [list_indent l_kind l_items]. rewrite map_length, Lx. fold ci. lia.
    + unfold first_col. unfold ci, content_indent. fold s. lia.
Qed.
(** ** Tables *)
Lemma plain_cell_flat : forall c, plain_cell c -> let o := one_line udigit c in let c' := unwrap_inlines c in
  o = source c' /\ plain_cell c' /\ unwrap_inlines c' = unwrap_inlines c /\ inline_many0 cfg o = Ok [] c' /\ Forall cell_char_ok o /\ (o = [] \/ tight o).
Proof.
  intros c (R & T & N & B). cbv zeta. unfold one_line. destruct T as [->|T].
  - cbn. split; [reflexivity|]. split; [split; [exact R|]; split; [now left|]; split; [exact N|exact B]|]. split; [reflexivity|]. split; [reflexivity|]. split; [constructor|now left].
  - destruct (rich_atx c R T N) as (E & R' & T' & N' & U & P & _ & _ & L). rewrite E.
    assert (B' : ~ In (ch "|") (source (unwrap_inlines c))).
    { intro I. apply B. pose proof (rewrap_source udigit c _ (rewrap_flat udigit c R)) as SS. apply same_sym in SS. clear -I SS. revert I. generalize dependent (source c). induction (source (unwrap_inlines c)) as [|x s IH]; intros s' SS I; [destruct I|].
      apply same_cons in SS as (y & b & -> & F & SS). destruct I as [->|I]; [left|right; now apply (IH b)]. now apply flat_fixed in F; [subst|discriminate..]. }
    split; [reflexivity|]. split; [exact (conj R' (conj (or_intror T') (conj N' B')))|]. split; [exact U|]. split; [exact P|]. split; [|now right].
    apply Forall_forall. intros x I. rewrite Forall_forall in L. split; [now apply L|]. intros ->. contradiction.
Qed.
Lemma pad_read : forall al w c, plain_cell c -> cell_read entities punct upper (cell_pad al w (one_line udigit c)) (unwrap_inlines c).
Proof.
  intros al w c H. destruct (plain_cell_flat c H) as (_ & _ & _ & P & F & T). destruct (cell_pad_placed al w (one_line udigit c)) as (a & b & -> & _).
  assert (SP : forall n, Forall cell_char_ok (rep n c_sp)) by (intros n; apply Forall_forall; intros x I; apply repeat_spec in I; subst; repeat split; discriminate).
  assert (SW : forall n, Forall (fun c => is_whitespace c = true) (rep n c_sp)) by (intros n; apply Forall_forall; intros x I; apply repeat_spec in I; subst; reflexivity).
  split; [repeat (apply Forall_app; split); auto|].
  replace (trim (rep a c_sp ++ one_line udigit c ++ rep b c_sp)) with (one_line udigit c); [exact P|].
  symmetry. apply eq_sym, SyntaxDef.trimmed_eq. exists (rep a c_sp), (rep b c_sp). split; [reflexivity|]. split; [apply SW|]. split; [apply SW|].
  destruct T as [->|[(x & t & E & W) (t2 & y & E2 & W2)]].
  - split; [intros x (t & E); discriminate|intros v x E; now destruct v].
  - split; [intros z (t' & E'); rewrite E in E'; injection E' as <- _; exact W|]. intros v z E'. rewrite E2 in E'. apply app_inj_tail in E' as [_ <-]. exact W2.
Qed.
Lemma row_read : forall t row, Forall plain_cell row -> Forall2 (cell_read entities punct upper) (table_row_cells udigit t row) (map unwrap_inlines row).
Proof.
  intros t row F. unfold table_row_cells. 
  assert (X : forall i, Forall2 (cell_read entities punct upper) (map (fun k => cell_pad (nth k (t_alignments t) ANone) (column_chars udigit t k) (one_line udigit (nth (k - i) row []))) (seq i (len row))) (map unwrap_inlines row)).
  { induction F as [|c row Hc F IH]; intros i; [constructor|]. cbn [map seq List.length]. constructor.
    - rewrite Nat.sub_diag. cbn [nth]. now apply pad_read.
    - erewrite map_ext_in; [apply (IH (S i))|]. intros k I. apply in_seq in I. replace (k - i) with (S (k - S i)) by lia. reflexivity. }
  specialize (X 0). erewrite map_ext; [exact X|]. intros k. cbn beta. now rewrite Nat.sub_0_r.
Qed.
Lemma delimiters_read : forall t, ~ In ALeft (t_alignments t) -> Forall2 (fun d al => al <> ALeft /\ delimits al d) (delimiter_cells udigit t) (t_alignments t).
Proof.
  intros t N. unfold delimiter_cells.
  assert (X : forall als i, (forall k, nth k als ANone = nth (k + i) (t_alignments t) ANone) -> ~ In ALeft als ->
    Forall2 (fun d al => al <> ALeft /\ delimits al d) (map (fun k => delimiter (nth k (t_alignments t) ANone) (column_chars udigit t k)) (seq i (len als))) als).
  { induction als as [|al als IH]; intros i E NI; [constructor|]. cbn [map seq List.length]. constructor.
    - specialize (E 0). cbn in E. rewrite <- E. split; [intros ->; apply NI; now left|]. apply delimiter_delimits. rewrite E. apply column_chars_least.
    - apply IH; [|intro I; apply NI; now right]. intros k. specialize (E (S k)). cbn [nth] in E. rewrite E. f_equal. lia. }
  apply X; [|exact N]. intros k. now rewrite Nat.add_0_r.
Qed.
Lemma row_line_ok : forall cs, Forall (Forall line_char) cs -> Forall line_char (table_line cs).
Proof.
  intros cs F. unfold table_line. apply Forall_app. split; [repeat constructor; discriminate|]. apply Forall_app. split; [|repeat constructor; discriminate].
  induction F as [|c cs Hc F IH]; [constructor|]. destruct cs; [exact Hc|]. rewrite join_cons by discriminate. apply Forall_app. split; [exact Hc|]. apply Forall_app. split; [repeat constructor; discriminate|exact IH].
Qed.
Lemma plain_table_unwrap : forall t, plain_table t -> plain_table (Table (map (map unwrap_inlines) (t_rows t)) (t_alignments t)).
Proof.
  intros t (H1 & H2 & H3 & H4 & H5). split; [cbn; intro E; now apply map_eq_nil in E|]. split; [exact H2|]. split; [|split; [exact H4|]].
  - unfold md_rectangular in *. cbn [t_rows t_alignments]. apply Forall_map. eapply Forall_impl; [|exact H3]. intros row E. unfold table_row in *. now rewrite map_length.
  - cbn [t_rows]. apply Forall_map. eapply Forall_impl; [|exact H5]. intros row F. apply Forall_map. eapply Forall_impl; [|exact F]. intros c Hc. now destruct (plain_cell_flat c Hc) as (_ & X & _).
Qed.
Lemma table_good : forall p t, ~ in_item p -> plain_table t -> good p (BTable t) (join [c_nl] (table_lines udigit t)).
Proof.
  intros p t Ni Hp. pose proof (plain_table_unwrap t Hp) as Hp'. destruct Hp as (H1 & H2 & H3 & H4 & H5).
  destruct (t_rows t) as [|header rows] eqn:ET; [congruence|].
  assert (HL : table_lines udigit t = map table_line (table_row_cells udigit t header :: delimiter_cells udigit t :: map (table_row_cells udigit t) rows)) by (unfold table_lines; rewrite ET; cbn [map]; now rewrite map_map).
  assert (RL : forall row, Forall plain_cell row -> Forall (Forall line_char) (table_row_cells udigit t row)).
  { intros row F. pose proof (row_read t row F) as X. clear -X. induction X as [|c i cs is [H _] X IH]; [constructor|]. constructor; [|exact IH]. eapply Forall_impl; [|exact H]. intros x []; assumption. }
  assert (DL : Forall (Forall line_char) (delimiter_cells udigit t)).
  { pose proof (delimiters_read t H4) as X. clear -X. induction X as [|d al ds als [_ (n & Hn & ->)] X IH]; constructor; [|exact IH].
    assert (Y : Forall line_char (repeat (ch "-") n)) by (apply Forall_forall; intros x I; apply repeat_spec in I; subst; split; discriminate).
    destruct al; [exact Y|exact Y|apply Forall_app; split; [repeat constructor; discriminate|]; apply Forall_app; split; [exact Y|repeat constructor; discriminate]|apply Forall_app; split; [exact Y|repeat constructor; discriminate]]. }
  inversion H5 as [|? ? Fh Fr]; subst.
  assert (LL : Forall (Forall line_char) (table_lines udigit t)).
  { rewrite HL. apply Forall_map. constructor; [now apply row_line_ok, RL|]. constructor; [now apply row_line_ok|]. apply Forall_map. eapply Forall_impl; [|exact Fr]. intros row F. now apply row_line_ok, RL. }
  assert (HB : Forall (fun l => exists u, l = ch "|" :: u) (table_lines udigit t)).
  { rewrite HL. apply Forall_map. apply Forall_forall. intros cs _. unfold table_line. eexists. reflexivity. }
  assert (LN : Forall nl_free (table_lines udigit t)).
  { eapply Forall_impl; [|exact LL]. intros l F I. rewrite Forall_forall in F. now destruct (F _ I). }
  assert (NE : table_lines udigit t <> []) by (rewrite HL; discriminate).
  assert (HO : exists u, join [c_nl] (table_lines udigit t) = ch "|" :: u).
  { destruct (table_lines udigit t) as [|l ls]; [congruence|]. inversion HB as [|? ? (u & ->) _]; subst. rewrite join_flat. eexists. reflexivity. }
  destruct HO as (u & HO).
  apply (good_at p _ _ (BTable (Table (map (map unwrap_inlines) (header :: rows)) (t_alignments t))) (ch "|") u); auto.
  - apply solid_joined; [exact NE|]. apply Forall_forall. intros l I. rewrite Forall_forall in LL, HB. apply solid_line; [|now apply LL]. destruct (HB l I) as (v & ->). discriminate.
  - intros _ v E. rewrite HO in E. discriminate.
  - intros Hi. contradiction.
  - intros _. unfold dense. rewrite join_split by assumption. eapply Forall_impl; [|exact HB]. intros l (v & ->). now constructor.
  - split; [exact Ni|exact Hp'].
  - cbn. destruct t as [trows als]. cbn [t_rows t_alignments] in *. subst trows. do 2 f_equal. cbn [map].
    assert (UW : forall c, plain_cell c -> unwrap_inlines (unwrap_inlines c) = unwrap_inlines c) by (intros c Hc; now destruct (plain_cell_flat c Hc) as (_ & _ & X & _)). f_equal.
    + clear -Fh UW. induction Fh as [|c row Hc F IH]; [reflexivity|]. cbn [map]. f_equal; [|exact IH]. now apply UW.
    + clear -Fr UW. induction Fr as [|row rows F Fr IH]; [reflexivity|]. cbn [map]. f_equal; [|exact IH]. clear -F UW. induction F as [|c row Hc F IH]; [reflexivity|]. cbn [map]. f_equal; [|exact IH]. now apply UW.
  - intros _. split; [exact I|]. intros Hi. contradiction.
  - assert (RO : forall row, In row (header :: rows) -> len (table_row_cells udigit t row) = len (t_alignments t)).
    { intros row I. unfold table_row_cells. rewrite map_length, seq_length. unfold md_rectangular in H3. rewrite ET, Forall_forall in H3. exact (H3 row I). }
    rewrite HL in LN |- *. cbn [map]. apply reads_table; [apply margin_small| |now apply row_read|now apply delimiters_read| | |exact LN].
    + intro E. specialize (RO header (or_introl eq_refl)). rewrite E in RO. destruct (t_alignments t); [congruence|discriminate].
    + symmetry. apply RO. now left.
    + rewrite (RO header (or_introl eq_refl)). assert (RO' : forall row, In row rows -> len (table_row_cells udigit t row) = len (t_alignments t)) by (intros row I; apply RO; now right).
      clear -Fr RO' entities punct upper. induction Fr as [|row rows F Fr IH]; [constructor|]. cbn [map]. constructor; [split; [apply RO'; now left|now apply row_read]|]. apply IH. intros r I. apply RO'. now right.
Qed.
(** ** Link definitions *)
Lemma exists_last_or : forall (l : str), l = [] \/ exists v x, l = v ++ [x].
Proof. intros l. destruct l as [|c l]; [now left|right]. assert (N : c :: l <> []) by discriminate. destruct (exists_last N) as (v & x & E). now exists v, x. Qed.
Lemma split_tail : forall o s, nl_free s -> exists ls l, split_lines o = ls ++ [l] /\ split_lines (o ++ s) = ls ++ [l ++ s].
Proof.
  intros o s Hs. induction o as [|c o (ls & l & E1 & E2)].
  - exists [], []. split; [reflexivity|]. now apply split_one.
  - cbn [app split_lines]. rewrite E1, E2. destruct (N.eqb c c_nl); [exists ([] :: ls), l; now split|]. destruct ls as [|l1 ls]; [exists [], (c :: l)|exists ((c :: l1) :: ls), l]; now split.
Qed.
Lemma shortcut_paragraph : forall p l, plain_label udigit p l -> rich_paragraph udigit p [ILinkReference (LinkReference l l)].
Proof.
  intros p l (R & W & B & C & Q & I & _).
  assert (P : flat_map inline_preorder [ILinkReference (LinkReference l l)] = ILinkReference (LinkReference l l) :: flat_map inline_preorder l ++ flat_map inline_preorder l).
  { cbn [flat_map inline_preorder link_children lr_label lr_text]. now rewrite app_nil_r. }
  assert (SO : source [ILinkReference (LinkReference l l)] = lit "[" ++ source l ++ lit "]").
  { unfold source. cbn [flat_map source_of]. rewrite app_nil_r. destruct (list_eqb inline_eqb l l) eqn:E; [reflexivity|]. exfalso. assert (X : list_eqb inline_eqb l l = true) by now apply HtmlProps.label_eqb_eq. congruence. }
  split; [|split; [|split; [exact Logic.I|split; [|split]]]].
  - apply rich_shortcut; auto; [constructor|]. intros c _ (t & E). discriminate.
  - intros t J. rewrite P in J. destruct J as [J|J]; [discriminate|]. apply W. apply in_app_or in J as [J|J]; exact J.
  - rewrite SO. split; [exists (ch "["); eexists; split; reflexivity|]. exists (lit "[" ++ source l), (ch "]"). split; [now rewrite <- app_assoc|reflexivity].
  - intros E t E2. rewrite SO in E2. apply (Q E). destruct (source l) as [|x u] eqn:Es; [discriminate E2|]. exists u. cbn in E2. now injection E2 as -> _.
  - intros Hi J. rewrite P in J. destruct J as [J|J]; [discriminate|]. apply (I Hi). apply in_app_or in J as [J|J]; exact J.
Qed.
Lemma title_line : forall d t, plain_target d t -> Forall line_char (lit ": " ++ d ++ title_source t).
Proof.
  assert (O : forall s, one_liner s -> Forall line_char s) by (intros s [H1 H2]; apply Forall_forall; intros x I; split; intros ->; contradiction).
  intros d t (_ & _ & Hd & Ht). apply Forall_app. split; [repeat constructor; discriminate|]. apply Forall_app. split; [now apply O|]. destruct t as [t|]; [|constructor]. destruct Ht as (Ht & _).
  cbn [title_source]. unfold quoted_title. apply Forall_app. split; [repeat constructor; discriminate|]. apply Forall_app. split; [now apply O|repeat constructor; discriminate].
Qed.
Lemma label_rewrap : forall p l l', plain_label udigit p l -> rewrap udigit l l' -> plain_label udigit p l'.
Proof.
  intros p l l' Hl RW. pose proof (shortcut_paragraph p l Hl) as HP. pose proof (rw_same udigit _ _ _ _ RW (rw_nil udigit)) as RW2.
  destruct (rich_rewrap p _ _ HP RW2) as (HP' & _). destruct HP' as (R2 & W2 & _ & _ & _ & I2). destruct Hl as (R & W & B & C & Q & I & M).
  pose proof (rewrap_rich udigit l R l' RW) as R'. pose proof (rewrap_source udigit l l' RW) as SS.
  assert (NB : forall c, c <> c_sp -> c <> c_nl -> ~ begins_with c (source l) -> ~ begins_with c (source l')).
  { intros c N1 N2 N (t & E). apply same_sym in SS. rewrite E in SS. apply same_cons in SS as (y & b & E2 & F & _). apply flat_fixed in F; [|assumption..]. subst y. apply N. now exists b. }
  split; [exact R'|]. split; [now apply (rewrap_wraps udigit l)|]. split; [now apply (same_brackets (source l))|]. split; [apply NB; [discriminate|discriminate|exact C]|]. split; [intros E; apply NB; [discriminate|discriminate|now apply Q]|].
  split; [intros Hi; apply (no_break_unwrap l); [now apply (rewrap_unwrap udigit)|now apply I]|]. destruct M as [M|M]; [now left|right].
  clear -SS M. revert M. generalize dependent (source l'). induction (source l) as [|x s IH]; intros s' SS M.
  - apply same_sym in SS. destruct s' as [|y s']; [constructor|]. apply same_cons in SS as (? & ? & E & _). discriminate.
  - apply same_cons in SS as (y & b & -> & F & SS). inversion M; subst. constructor; [|now apply IH]. now rewrite (flat_ws x y).
Qed.
Lemma shortcut_source : forall l, source [ILinkReference (LinkReference l l)] = lit "[" ++ source l ++ lit "]".
Proof.
  intros l. unfold source. cbn [flat_map source_of]. rewrite app_nil_r. destruct (list_eqb inline_eqb l l) eqn:E; [reflexivity|]. exfalso. assert (X : list_eqb inline_eqb l l = true) by now apply HtmlProps.label_eqb_eq. congruence.
Qed.
Lemma label_paragraph : forall p l l', plain_label udigit p l -> rewrap udigit l l' -> settled (lit "[" ++ source l' ++ lit "]") /\ inline_many0 cfg (source l') = Ok [] l'.
Proof.
  intros p l l' Hl RW. pose proof (shortcut_paragraph p l Hl) as HP. pose proof (rw_same udigit _ _ _ _ RW (rw_nil udigit)) as RW2.
  destruct (rich_rewrap p _ _ HP RW2) as (_ & _ & St & _). rewrite shortcut_source in St. split; [exact St|].
  destruct (label_rewrap p l l' Hl RW) as (R & _ & (T & _) & _). apply rich_parses; [exact R|now apply tight_ne].
Qed.
Lemma definition_good : forall p l d t o, plain_label udigit p l -> plain_target d t -> laid None (at_ 0 (definition_view udigit (LinkDefinition l d t))) o -> good p (BDefinition (LinkDefinition l d t)) o.
Proof.
  intros p l d t o Hl Ht L. pose proof (proj1 Hl) as R.
  assert (X : exists l', rewrap udigit l l' /\ o = (lit "[" ++ source l' ++ lit "]") ++ lit ": " ++ d ++ title_source t).
  { unfold definition_view in L. cbn [ld_label ld_destination ld_title] in L. apply laid_cat in L as (a & o2 & -> & La & L). apply laid_text in La as (a' & -> & La). apply laid_end in La. subst a'.
    apply laid_cat in L as (b & o3 & -> & Lb & L). apply laid_text in L as (o4 & -> & L). apply laid_text in L as (o5 & -> & L). apply laid_end in L. subst o5.
    apply (laid_rewrap udigit l R) in Lb as (l' & RW & ->). exists l'. split; [exact RW|]. rewrite <- !app_assoc, app_nil_r; destruct t; reflexivity. }
  destruct X as (l' & RW & Eo). pose proof (label_rewrap p l l' Hl RW) as Hl'. destruct (label_paragraph p l l' Hl RW) as [St Pa]. pose proof (title_line d t Ht) as TL.
  set (o1 := lit "[" ++ source l' ++ lit "]") in *. set (s := lit ": " ++ d ++ title_source t) in *.
  assert (NF : nl_free s) by (intro J; rewrite Forall_forall in TL; now destruct (TL _ J)).
  destruct (split_tail o1 s NF) as (ls & lst & E1 & E2).
  assert (HB : In (ch "]") lst).
  { pose proof (split_join o1) as J. rewrite E1 in J. assert (exists v, lst = v ++ lit "]") as (v & ->); [|apply in_or_app; right; now left].
    destruct (exists_last_or lst) as [->|(v & x & ->)].
    - exfalso. destruct ls as [|l1 ls]; [discriminate|]. rewrite join_app in J by discriminate. unfold o1 in J. rewrite !app_assoc in J. change (lit "]") with [ch "]"] in J. cbn [join] in J. rewrite app_nil_r in J. apply app_inj_tail in J as [_ J]. discriminate.
    - exists v. enough (x = ch "]") by now subst x. assert (E : exists w, o1 = w ++ [x]).
      { rewrite <- J. destruct ls as [|l1 ls]; [exists v; reflexivity|]. rewrite join_app by discriminate. cbn [join]. eexists. rewrite !app_assoc. reflexivity. }
      destruct E as (w & E). unfold o1 in E. rewrite app_assoc in E. change (lit "]") with [ch "]"] in E. apply app_inj_tail in E as [_ E]. now symmetry. }
  assert (HO : exists u, o = ch "[" :: u) by (subst o; eexists; reflexivity). destruct HO as (u & HO).
  assert (LN : split_lines o = ls ++ [lst ++ s]) by now rewrite Eo.
  assert (TS : ~ task_start o).
  { intros (x & v & E & W). destruct Hl' as (_ & _ & (_ & B & _) & _). rewrite Eo in E. unfold o1, s in E. cbn [lit app] in E. injection E as E.
    destruct (source l') as [|y [|z w]]; cbn [app] in E.
    - discriminate E.
    - injection E as _ <-. specialize (W _ _ eq_refl). discriminate.
    - injection E as _ -> _. apply B. right. now left. }
  apply (good_at p _ o (BDefinition (LinkDefinition l' d t)) (ch "[") u); auto.
  - rewrite Eo. destruct St as (Cr & _). split.
    + intro J. apply in_app_or in J as [J|J]; [contradiction|]. rewrite Forall_forall in TL. now destruct (TL _ J).
    + assert (N : s <> []) by discriminate. destruct (exists_last N) as (a & x & E). exists (o1 ++ a), x. rewrite E, app_assoc. split; [reflexivity|]. intros ->. apply NF. rewrite E. apply in_or_app. right. now left.
  - intros Q v E. destruct Hl' as (_ & _ & (T & _) & _ & H & _). apply (H Q). rewrite Eo in E. unfold o1 in E. destruct T as [(y & w & T & _) _]. rewrite T in E |- *. cbn [lit app] in E. injection E as -> _. now exists w.
  - intros _. split; [|intros []]. unfold steady. rewrite LN. pose proof (steady_settled _ _ _ _ St) as Z. unfold steady in Z. rewrite E1 in Z. apply Forall_app in Z as [Z1 Z2]. apply Forall_app. split; [exact Z1|]. constructor; [|constructor].
    split; [intro E; apply app_eq_nil in E as [_ E]; discriminate|]. intros (k & c & n & w & Hn & Hc & Hw & E).
    assert (J : In (ch "]") (rep k c_sp ++ rep n c ++ w)) by (rewrite <- E; apply in_or_app; now left).
    apply in_app_or in J as [J|J]; [apply repeat_spec in J; discriminate|]. apply in_app_or in J as [J|J]; [apply repeat_spec in J; subst c; cbn in Hc; intuition discriminate|].
    pose proof (proj1 (Forall_forall _ _) Hw _ J) as X. discriminate X.
  - intros _. unfold dense. rewrite LN. pose proof (dense_settled _ _ _ _ St) as Z. unfold dense in Z. rewrite E1 in Z. apply Forall_app in Z as [Z1 Z2]. apply Forall_app. split; [exact Z1|]. constructor; [|constructor].
    apply Exists_exists. exists (ch "]"). split; [apply in_or_app; now left|reflexivity].
  - split; [exact Hl'|exact Ht].
  - cbn. now rewrite (rewrap_unwrap udigit l l' RW).
  - intros _. split; [exact I|]. intros _. apply calm_line; [|exact TS]. exists (ch "["), u. split; [exact HO|]. now apply white_inked.
  - replace (pre (margin p) o) with (rep (margin p) c_sp ++ definition_text (source l') d t); [|].
    + destruct Hl' as (_ & _ & B & C & _). apply reads_definition; auto. apply margin_small.
    + assert (DT : o = definition_text (source l') d t) by (rewrite Eo; unfold o1, s, definition_text; rewrite <- !app_assoc; reflexivity). rewrite <- DT.
      destruct Hl' as (_ & _ & _ & _ & _ & _ & [M|M]); [rewrite M, pre_0; reflexivity|]. symmetry. apply pre_one. rewrite Eo. intro J.
      apply in_app_or in J as [J|J]; [|contradiction]. unfold o1 in J. apply in_app_or in J as [J|J]; [destruct J as [J|[]]; discriminate J|].
      apply in_app_or in J as [J|J]; [|destruct J as [J|[]]; discriminate J]. pose proof (proj1 (Forall_forall _ _) M _ J) as X. discriminate X.
Qed.
Lemma html_good : forall p s o, plain_block udigit config p (BHtmlBlock s) -> laid None (block_view upper udigit config 0 (BHtmlBlock s)) o -> good p (BHtmlBlock s) o.
Proof.
  intros p s o Hp L. cbn [block_view] in L. inversion L as [|? ? ? o2 L2 E1 E2| | | | |]; subst o. inversion L2; subst o2. rewrite app_nil_r. clear L L2.
  assert (Hh : html_here (between_blocks p) s) by (destruct Hp as [[_ Hc]|[-> [Ht|Ht]]]; [now apply closed_here_html|now apply tag_here_html|now apply lone_here_html]).
  assert (Hs : p <> Top -> ~ In c_nl s /\ closed_html s) by (intros N; destruct Hp as [[[Hn|Hn] Hc]|[Ht _]]; [contradiction|now split|contradiction]).
  assert (One : p <> Top -> split_lines s = [s]) by (intros N; apply split_one; now apply Hs).
  destruct (proj1 Hh) as (t & E).
  split; [intros N; apply Hs in N as [_ Hc]; destruct (closed_end s Hc) as (u & Eu); split; [apply Hc|exists u, (ch ">"); split; [exact Eu|discriminate]]|].
  split; [intros _; exists 0, (ch "<"), t; split; [lia|split; [repeat split; discriminate|exact E]]|].
  split; [intros _; exists 0, (ch "<"), t; split; [exact E|split; [reflexivity|intros w X; discriminate X]]|].
  split; [intros I|split; [intros C; exact C|]].
  { split; [|intros []]. unfold steady. rewrite One by (intros ->; destruct I as (n & I); discriminate I). constructor; [|constructor]. rewrite E. split; [discriminate|].
    intros (j & d & m & w & Hm & Hd & _ & E3). destruct j as [|j]; [|discriminate]. destruct m as [|m]; [lia|]. cbn in E3. injection E3 as <- _. cbn in Hd. intuition discriminate. }
  exists (BHtmlBlock s). split; [exact Hp|]. split; [reflexivity|]. split.
  - intros _. split; [exact I|]. intros K. apply (head_calm (ch "<")); [repeat split; discriminate|discriminate|eauto].
  - destruct (Nat.eq_dec (margin p) 0) as [M|M].
    + rewrite M, pre_0. apply (reads_html entities punct upper _ _ _ 0); [lia|exact Hh].
    + unfold pre. rewrite One by (intros ->; now apply M). cbn [map join]. apply reads_html; [apply margin_small|exact Hh].
Qed.
Lemma block_good : forall b p o, plain_block udigit config p b -> laid None (block_view upper udigit config 0 b) o -> good p b o.
Proof.
  induction b as [c|h| |bs IH|kind items IH|c|s|d|t|f bs IH|g bs IH|] using block_ind'; intros p o Hp L; try (destruct Hp; fail).
  - cbn [block_view plain_block] in *. destruct (rich_laid p c o Hp L) as (c' & H0 & H3 & H1 & H2 & H4 & H5 & H6 & H7 & H8). pose proof H6 as [(x & t & E & W) _].
    apply (good_at p _ o (BParagraph c') x t); auto.
    + intros Q u E2. subst p. destruct H0 as (_ & _ & _ & _ & H0 & _). apply (H0 eq_refl u). congruence.
    + intros _. split; [eapply steady_settled; exact H1|intros []].
    + intros _. eapply dense_settled; exact H1.
    + cbn. now rewrite H3.
    + cbn [begins_item]. intros B. assert (B' : ~ task_start (source c')) by now apply (same_start (source c)). split; [exact B'|]. intros _. rewrite H8. apply calm_line; [rewrite <- H8; now apply tight_inked|exact B'].
    + apply reads_paragraph; auto. apply margin_small.
  - destruct h as [[n|l] c]; cbn [block_view plain_block] in *.
    + destruct Hp as (Np & Hn & Hr & Ht & Hb).
      destruct (rich_atx c Hr Ht Hb) as (A1 & A2 & A3 & A4 & A5 & A6 & A7 & A8 & A9). set (u := source (unwrap_inlines c)) in *.
      assert (E : o = rep (N.to_nat n) (ch "#") ++ c_sp :: u).
      { unfold heading_view in L. rewrite <- (app_nil_r (at_ 0 _)) in L. apply laid_words in L as (o' & -> & L).
        - inversion L; subst. rewrite app_nil_r. cbn [flat_map app piece_text]. now rewrite A1.
        - apply Forall_app. split; [repeat constructor|]. now apply words_only_list. }
      assert (E2 : o = ch "#" :: rep (N.to_nat n - 1) (ch "#") ++ c_sp :: u) by (rewrite E; destruct (N.to_nat n) as [|m] eqn:En; [lia|]; replace (S m - 1) with m by lia; reflexivity).
      assert (SO : solid o).
      { rewrite E. destruct A7 as [B1 (a & x & B2 & B3)]. split.
        - intro J. apply in_app_or in J as [J|[J|J]]; [|discriminate|now apply B1]. apply repeat_spec in J. discriminate.
        - exists (rep (N.to_nat n) (ch "#") ++ c_sp :: a), x. split; [|exact B3]. rewrite B2. now rewrite <- app_assoc. }
      apply (good_at p _ o (BHeading (Heading (Atx n) (unwrap_inlines c))) (ch "#") (rep (N.to_nat n - 1) (ch "#") ++ c_sp :: u)); auto.
      * intros _ w X. rewrite E2 in X. discriminate X.
      * intros _. split; [|intros []]. unfold steady. rewrite split_one.
        -- constructor; [|constructor]. rewrite E2. split; [discriminate|]. intros (j & d & m & w & Hm & Hd & _ & E3). destruct j as [|j]; [|discriminate]. destruct m as [|m]; [lia|]. cbn in E3. injection E3 as <- _. cbn in Hd. intuition discriminate.
        -- rewrite E. intro J. apply in_app_or in J as [J|[J|J]]; [apply repeat_spec in J; discriminate|discriminate|]. rewrite Forall_forall in A9. now apply A9 in J as [J _].
      * intros _. apply dense_one; [|rewrite E2; now constructor].
        rewrite E. intro J. apply in_app_or in J as [J|[J|J]]; [apply repeat_spec in J; discriminate|discriminate|]. rewrite Forall_forall in A9. now apply A9 in J as [J _].
      * split; [exact Np|]. split; [exact Hn|]. exact (conj A2 (conj A3 A4)).
      * cbn. now rewrite A5.
      * intros _. split; [exact I|]. intros _. apply (head_calm (ch "#")); [repeat split; discriminate|discriminate|eauto].
      * rewrite Np, pre_0, E. rewrite <- (N2Nat.id n) at 2. apply reads_atx; auto. lia.
    + destruct Hp as [Hp Hl]. unfold heading_view in L.
      unfold at_ in L. rewrite map_app in L. cbn [map] in L. fold (at_ 0 (inlines_view udigit true c)) in L.
      apply laid_split in L as (oa & ob & -> & La & Lb). apply laid_none in La; [|apply at0_flat].
      inversion Lb as [| | | |? ? o1 L1 E1 E2| |]; subst. inversion L1 as [|? ? ? o2 L2 E1 E2| | | | |]; subst. inversion L2; subst.
      rewrite app_nil_r. cbn [next_indent]. change (break_to 0 ++ setext_line l) with (c_nl :: setext_line l).
      destruct (rich_laid p c oa Hp La) as (c' & H0 & H3 & H1 & H2 & H4 & H5 & H6 & H7 & H8). pose proof H6 as [(x & t & E & W) _].
      apply (good_at p _ _ (BHeading (Heading (Setext l) c')) x (t ++ c_nl :: setext_line l)); auto.
      * destruct H4 as [I1 _]. split.
        -- intro J. apply in_app_or in J as [J|[J|J]]; [now apply I1|discriminate|]. destruct l; cbn in J; intuition discriminate.
        -- destruct l; [exists (oa ++ c_nl :: lit "========="), (ch "=")|exists (oa ++ c_nl :: lit "---------"), (ch "-")]; (split; [now rewrite <- app_assoc|discriminate]).
      * rewrite E. reflexivity.
      * intros Q u E2. subst p. destruct H0 as (_ & _ & _ & _ & H0 & _). rewrite <- H8 in H0. rewrite E in *. destruct t as [|y t]; [discriminate|]. injection E2 as -> -> _. now apply (H0 eq_refl t).
      * intros Hi. split; [|intros []]. unfold steady. rewrite split_app2. apply Forall_app. split; [eapply steady_settled; exact H1|]. rewrite (Hl Hi). cbn [setext_line].
        rewrite split_one by (intro J; cbn in J; intuition discriminate). constructor; [|constructor]. split; [discriminate|]. intros (j & d & m & w & Hm & Hd & _ & E3). destruct j as [|j]; [|discriminate]. destruct m as [|m]; [lia|]. cbn in E3. injection E3 as <- _. cbn in Hd. intuition discriminate.
      * intros _. apply dense_app; [eapply dense_settled; exact H1|]. destruct l; (apply dense_one; [intro J; cbn in J; intuition discriminate|now constructor]).
      * split; [exact H0|exact Hl].
      * cbn. now rewrite H3.
      * cbn [begins_item]. intros B. assert (B' : ~ task_start (source c')) by now apply (same_start (source c)). split; [exact B'|]. intros _. rewrite head_line_app, H8. apply calm_line; [rewrite <- H8; now apply tight_inked|exact B'].
      * apply reads_setext; auto. apply margin_small.
  - cbn [block_view plain_block] in *. inversion L as [|? ? ? o2 L2 E1 E2| | | | |]; subst. inversion L2; subst.
    apply (good_at p _ _ BThematicBreak (ch "-") (lit "--")); auto.
    + split; [intro J; cbn in J; intuition discriminate|]. exists (lit "--"), (ch "-"). split; [reflexivity|discriminate].
    + intros _ u E; discriminate.
    + intros Hi. contradiction.
    + intros _. apply dense_one; [intro J; cbn in J; intuition discriminate|now constructor].
    + intros _. split; [exact I|]. intros Hi. contradiction.
    + apply reads_thematic; auto. apply margin_small.
  - apply plain_quote in Hp as (Hne & HO & Hp). cbn [block_view] in L.
    inversion L as [| | | | |? inner t ps o1 L1 L2 E1 E2|]; subst. inversion L2; subst. rewrite app_nil_r.
    destruct (goods Quote bs Hp IH t L1) as (os & -> & G). pose proof G as GS0; apply goods_solid in GS0; [|discriminate]; pose proof GS0 as GS.
    assert (Hos : os <> []) by (destruct G; [congruence|discriminate]).
    pose proof (solid_join os Hos GS) as SJ. rewrite lines_split by exact SJ.
    change (break_to 0) with [c_nl]. change (join [c_nl] (map (fun l => lit "> " ++ l) ?x)) with (join [c_nl] (map (app (lit "> ")) x)).
    fold (quoted (join [c_nl; c_nl] os)).
    assert (CH : calm_head (join [c_nl; c_nl] os)).
    { destruct G as [|b o bs os (_ & _ & H & _) G]; [congruence|]. destruct (H eq_refl) as (k & c & r & -> & X & Y). rewrite join_flat, <- app_assoc. exists k, c. eexists. split; [reflexivity|]. split; [exact X|].
      intros u E. change (c :: r ++ flat_map (fun y : list char => [c_nl; c_nl] ++ y) os = lit "[!" ++ u) in E. destruct os as [|o2 os]; cbn [flat_map app] in E; [rewrite app_nil_r in E; now apply (Y u)|]. destruct r as [|y r]; [discriminate|]. cbn [app] in E. injection E as -> -> _. now apply (Y r). }
    pose proof (solid_lines _ SJ) as SL.
    assert (LQ : split_lines (quoted (join [c_nl; c_nl] os)) = map (app (lit "> ")) (split_lines (join [c_nl; c_nl] os))).
    { unfold quoted. apply join_split; [intro E; apply map_eq_nil in E; now apply split_ne in E|]. apply Forall_map. eapply Forall_impl; [|apply split_free]. intros l Hl J. apply in_app_or in J as [J|J]; [cbn in J; intuition discriminate|contradiction]. }
    assert (HQ : exists t, quoted (join [c_nl; c_nl] os) = ch ">" :: t).
    { unfold quoted. pose proof (split_ne (join [c_nl; c_nl] os)). destruct (split_lines _) as [|l ls]; [congruence|]. cbn [map]. rewrite join_flat. eexists. reflexivity. }
    destruct HQ as (t & HQ).
    destruct (goods_reads Quote bs os HO G) as (bs' & P & E & O' & R & K & _).
    apply (good_at p _ _ (BBlockQuote bs') (ch ">") t); auto.
    + apply pre_solid; [|exact SJ]. intro J; cbn in J; intuition discriminate.
    + intros _ u Eu. rewrite HQ in Eu. discriminate.
    + intros _. split; [|intros []]. unfold steady. rewrite LQ. apply Forall_map. apply Forall_forall. intros l _. split; [discriminate|]. intros (j & d & m & w & Hm & Hd & _ & E3). destruct j as [|j]; [|discriminate]. destruct m as [|m]; [lia|]. cbn in E3. injection E3 as <- _. cbn in Hd. intuition discriminate.
    + intros _. unfold dense. rewrite LQ. apply Forall_map. apply Forall_forall. intros l _. now constructor.
    + apply plain_quote. split; [|split; [exact O'|exact P]]. intros ->. destruct bs; [congruence|discriminate].
    + cbn. now rewrite E.
    + intros _. split; [exact I|]. intros _. apply (head_calm (ch ">")); [repeat split; discriminate|discriminate|eauto].
    + eapply reads_quote; [apply margin_small|exact Hos|exact R|exact K|exact SL|]. apply no_alert_head; [exact Hupper|]. now apply first_line_head.
  - now apply list_good.
  - destruct c as [[|info] s]; cbn [block_view plain_block] in *.
    + destruct Hp as [-> (Hc & (k & c & r & Es & Hw) & Hl)]. cbn [code_view] in L. inversion L as [|? ? ? o2 L2 E1 E2| | | | |]; subst o. inversion L2; subst o2. rewrite app_nil_r.
      assert (SS : solid s).
      { split; [exact Hc|]. assert (N : s <> []) by (rewrite Es; destruct k; discriminate). destruct (exists_last N) as (a & x & E). exists a, x. split; [exact E|].
        intros ->. now apply (Hl a). }
      rewrite lines_split by exact SS. change (join [c_nl] (map (fun l => lit "    " ++ l) (split_lines s))) with (pre 4 s).
      split; [|split; [intros N; now destruct N|split; [discriminate|split; [intros (n & Z); discriminate|split]]]].
      * intros _. apply (pre_solid (rep 4 c_sp) s); [|exact SS]. intro J; cbn in J; intuition discriminate.
      * cbn [compact]. intros C. unfold dense. match goal with |- context [split_lines ?x] => change x with (pre 4 s) end. rewrite pre_lines. apply Forall_map. eapply Forall_impl; [|exact C]. intros l. apply inky_app.
      * exists (BCodeBlock (CodeBlock Indented s)). split; [split; [reflexivity|split; [exact Hc|split; [exists k, c, r; now split|exact Hl]]]|]. split; [reflexivity|]. split; [intros _; split; [exact I|intros (n & Z); discriminate]|].
        cbn [margin]. rewrite pre_0. apply reads_indented; [cbn; lia|now apply solid_lines|]. exists k, c, r. split; [exact Es|now apply white_inked].
    + destruct Hp as [Ni [Hi [Hc Hf]]]. cbn [code_view at_ map] in L.
      inversion L as [|? ? ? o1 L1 E1 E2| | | | |]; subst o. inversion L1 as [|? ? ? o2 L2 E3 E4| | | | |]; subst o1. inversion L2 as [|? ? ? o3 L3 E5 E6| | | | |]; subst o2. inversion L3; subst o3. clear dependent i.
      rewrite app_nil_r. set (i := match info with Some i => i | None => [] end).
      match goal with |- good _ _ ?x => replace x with (lit "```" ++ i ++ c_nl :: s ++ c_nl :: lit "```") by (subst i; cbn [lit app]; rewrite <- app_assoc; reflexivity) end.
      assert (Hi2 : Forall line_char i /\ not_head backtick i /\ info_of i = info).
      { subst i. destruct info as [i|]; [|repeat split; constructor]. destruct Hi as (N & (I1 & I2) & HF). split; [|split].
        - apply Forall_forall. intros x J. split; intros ->; contradiction.
        - destruct i as [|x i]; [congruence|]. cbn. intros ->. exact (HF i eq_refl).
        - destruct i; [congruence|reflexivity]. }
      destruct Hi2 as (I1 & I2 & I3).
      eapply (good_at p _ _ (BCodeBlock (CodeBlock (Fenced info) s)) (ch "`")); [|reflexivity|reflexivity|intros _ u E; discriminate|intros Z; contradiction| |exact (conj Ni (conj Hi (conj Hc Hf)))|reflexivity|intros _; split; [exact I|intros Z; contradiction]|].
      * split.
        -- intro J. apply in_app_or in J as [J|J]; [cbn in J; intuition discriminate|]. apply in_app_or in J as [J|[J|J]]; [rewrite Forall_forall in I1; now destruct (I1 _ J)|discriminate|].
           apply in_app_or in J as [J|[J|J]]; [contradiction|discriminate|]. cbn in J; intuition discriminate.
        -- exists (lit "```" ++ i ++ c_nl :: s ++ c_nl :: lit "``"), (ch "`"). split; [|discriminate]. rewrite <- !app_assoc. cbn [app]. rewrite <- !app_assoc. reflexivity.
      * cbn [compact]. intros C. rewrite app_assoc. apply dense_app; [apply dense_one; [|now constructor]|apply dense_app; [exact C|]].
        -- intro J. apply in_app_or in J as [J|J]; [cbn in J; intuition discriminate|]. rewrite Forall_forall in I1. now destruct (I1 _ J).
        -- apply dense_one; [intro J; cbn in J; intuition discriminate|now constructor].
      * rewrite <- I3 at 1. apply reads_fenced; auto; [apply margin_small|now split|].
        pose proof (split_free s) as F. apply Forall_forall. intros l Il. apply Forall_forall. intros x J. rewrite Forall_forall in F. split; [intros ->; exact (F l Il J)|].
        intros ->. apply Hc. rewrite <- (split_join s). clear -Il J. induction (split_lines s) as [|y ls IH]; [contradiction|].
        rewrite join_flat. apply in_or_app. destruct Il as [->|Il]; [now left|right]. apply in_flat_map. exists l. split; [exact Il|now right].
  - now apply html_good.
  - destruct d as [l d t]. destruct Hp as [Hl Ht]. cbn [block_view] in L. now apply definition_good.
  - destruct Hp as [Ni Hp]. pose proof (proj1 Hp) as N. cbn [block_view] in L. destruct (t_rows t) eqn:ET; [congruence|]. inversion L as [|? ? ? o2 L2 E1 E2| | | | |]; subst o. inversion L2; subst o2. rewrite app_nil_r. now apply table_good.
  - apply plain_alert in Hp as (Ht & HO & Hp). pose proof (label_line upper g Ht) as HL.
    assert (Hc : Forall compact bs) by (eapply Forall_impl; [|exact Hp]; intros x []; assumption).
    assert (Hb : Forall (plain_block udigit config Alert) bs) by (eapply Forall_impl; [|exact Hp]; intros x []; assumption).
    assert (X : exists os, Forall2 (good Alert) bs os /\ o = lit "> [!" ++ alert_label upper g ++ lit "]" ++ flat_map (fun l => c_nl :: alert_text l) (match os with [] => [] | _ => split_lines (join [c_nl; c_nl] os) end)).
    { cbn [block_view] in L. inversion L as [|? ? ? o2 L2 E1 E2| | | | |]; subst. destruct bs as [|b bs].
      - inversion L2; subst. exists []. split; [constructor|]. cbn [flat_map]. rewrite !app_nil_r. reflexivity.
      - inversion L2 as [| | | | | |? inner t ps o1 L1 L3 E1 E2]; subst. inversion L3; subst. destruct (goods Alert (b :: bs) Hb IH t L1) as (os & -> & G). exists os. split; [exact G|].
        destruct os as [|o1 os]; [inversion G|]. rewrite app_nil_r, lines_split; [cbn [lit app]; rewrite <- app_assoc; reflexivity|]. apply solid_join; [discriminate|now apply goods_solid in G]. }
    destruct X as (os & G & ->). set (ls := match os with [] => [] | _ => split_lines (join [c_nl; c_nl] os) end) in *. pose proof G as GS0; apply goods_solid in GS0; [|discriminate]; pose proof GS0 as GS.
    assert (SL : Forall (Forall line_char) ls).
    { unfold ls. destruct os as [|o1 os]; [constructor|]. apply solid_lines, solid_join; [discriminate|exact GS]. }
    assert (DS : Forall dense os).
    { clear -G Hc. induction G as [|b o bs os (_ & _ & _ & _ & D & _) G IHG]; [constructor|]. inversion Hc; subst. constructor; auto. }
    set (ls' := map (fun l => tl (alert_text l)) ls).
    assert (SL' : Forall (Forall line_char) ls').
    { unfold ls'. apply Forall_map. eapply Forall_impl; [|exact SL]. intros l Fl. unfold alert_text. destruct (forallb is_whitespace l); [constructor|]. constructor; [split; discriminate|exact Fl]. }
    set (first := c_sp :: lit "[!" ++ alert_label upper g ++ lit "]").
    assert (HF : Forall line_char first).
    { unfold first. constructor; [split; discriminate|]. apply Forall_app. split; [repeat constructor; discriminate|]. apply Forall_app. split; [exact HL|repeat constructor; discriminate]. }
    assert (HE : lit "> [!" ++ alert_label upper g ++ lit "]" ++ flat_map (fun l => c_nl :: alert_text l) ls = behind (first :: ls')).
    { unfold behind. cbn [map]. rewrite join_flat. unfold first. change (lit "> [!" ++ ?a) with (ch ">" :: c_sp :: lit "[!" ++ a). cbn [app]. rewrite <- !app_assoc. cbn [app]. rewrite <- ?app_assoc. do 5 f_equal. unfold ls'. rewrite map_map, flat_map_map.
      apply flat_map_ext. intros l. cbn [app]. unfold alert_text. destruct (forallb is_whitespace l); reflexivity. }
    rewrite HE. clear HE.
    assert (LQ : split_lines (behind (first :: ls')) = map (cons (ch ">")) (first :: ls')).
    { apply join_split; [discriminate|]. apply Forall_map. assert (Z : Forall (Forall line_char) (first :: ls')) by now constructor. eapply Forall_impl; [|exact Z]. intros l Fl [E|I]; [discriminate|]. rewrite Forall_forall in Fl. now destruct (Fl _ I). }
    destruct (goods_reads Alert bs os HO G) as (bs' & P & E & O' & R & K & _).
    assert (HQ : exists t, behind (first :: ls') = ch ">" :: t) by (unfold behind; cbn [map]; rewrite join_flat; eexists; reflexivity). destruct HQ as (t & HQ).
    apply (good_at p _ _ (BGitHubAlert (GitHubAlert g bs')) (ch ">") t); auto.
    + unfold behind. apply solid_joined; [discriminate|]. apply Forall_map. assert (Z : Forall (Forall line_char) (first :: ls')) by now constructor. eapply Forall_impl; [|exact Z]. intros l Fl. apply solid_line; [discriminate|]. constructor; [split; discriminate|exact Fl].
    + intros _ u Eu. rewrite HQ in Eu. discriminate.
    + intros _. split; [|intros []]. unfold steady. rewrite LQ. apply Forall_map. apply Forall_forall. intros l _. split; [discriminate|]. intros (j & d & m & w & Hm & Hd & _ & E3). destruct j as [|j]; [|discriminate]. destruct m as [|m]; [lia|]. cbn in E3. injection E3 as <- _. cbn in Hd. intuition discriminate.
    + intros _. unfold dense. rewrite LQ. apply Forall_map. apply Forall_forall. intros l _. now constructor.
    + apply plain_alert. split; [exact Ht|]. split; [exact O'|]. apply Forall_forall. intros b I. rewrite Forall_forall in P. split; [|now apply P]. rewrite <- compact_unwrap. apply (in_map unwrap_block) in I. rewrite E in I. apply in_map_iff in I as (b0 & <- & I). rewrite compact_unwrap. rewrite Forall_forall in Hc. now apply Hc.
    + cbn. now rewrite E.
    + intros _. split; [exact I|]. intros _. apply (head_calm (ch ">")); [repeat split; discriminate|discriminate|eauto].
    + eapply (reads_alert entities punct upper (margin p) g ls' (follow_width Alert) 0 (first_col Alert) (map (pre 1) os) bs'); [apply margin_small|exact Ht|exact SL'| |exact R|exact K].
      unfold ls', ls. destruct os as [|o1 os]; [reflexivity|]. now apply alert_lines.
Qed.

Theorem document_round : forall d o, plain_document udigit config d -> laid None (document_view upper udigit config d) o ->
  exists d', plain_document udigit config d' /\ parse_markdown cfg o = Ok [] d' /\ unwrap d' = unwrap d.
Proof.
  intros [bs] o [HO Hp] L. unfold document_view in *. cbn [d_blocks] in *.
  destruct (goods Top bs Hp) with (o := o) as (os & -> & G); [|exact L|].
  { apply Forall_forall. intros b _ inside o'. apply block_good. }
  destruct (goods_reads Top bs os HO G) as (bs' & P & E & O' & R & K & _).
  exists (Document bs'). split; [split; [exact O'|exact P]|]. split; [|unfold unwrap; cbn [d_blocks]; now rewrite E].
  replace os with (map (pre 0) os) by (erewrite map_ext; [apply map_id|apply pre_0]). eapply document_reads_at; [exact R|exact K].
Qed.
End Main.
