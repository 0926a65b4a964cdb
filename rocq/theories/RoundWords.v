(** Lines that begin with a word of prose begin no block. *)
From Coq Require Import String Lia.
From Verif Require Export RoundBlocks.
Import ListNotations.
Open Scope list_scope.
Local Notation len := (@List.length _).

Lemma plain_ne : forall c d, plain_char c -> In d special_chars -> c <> d.
Proof. intros c d H I ->. now apply H. Qed.

(** ** Runs of one character *)
Lemma run_split : forall c (w : str), (exists n, w = repeat c n) \/ exists n d t, w = repeat c n ++ d :: t /\ d <> c.
Proof.
  intros c. induction w as [|x w IH]; [left; now exists 0|]. destruct (N.eqb_spec x c) as [->|H].
  - destruct IH as [(n & ->)|(n & d & t & -> & Hd)]; [left; now exists (S n)|]. right. now exists (S n), d, t.
  - right. now exists 0, x, w.
Qed.
Lemma char_same : forall c s, char_ c (c :: s) = Ok s c.
Proof. intros c s. unfold char_, satisfy. now rewrite N.eqb_refl. Qed.
Lemma many_run : forall c n hi lo d t, d <> c -> n < hi ->
  many_m_n lo hi (char_ c) (repeat c n ++ d :: t) = (if lo <=? n then Ok (d :: t) (repeat c n) else Err).
Proof.
  intros c. induction n as [|n IH]; intros hi lo d t Hd Hhi; (destruct hi as [|hi]; [lia|]).
  - cbn [repeat app many_m_n]. rewrite char_ne by congruence. destruct lo; reflexivity.
  - cbn [repeat app many_m_n]. rewrite char_same.
    match goal with |- context [(?a =? ?b)] => destruct (Nat.eqb_spec a b) as [Y|_]; [cbn [List.length] in Y; lia|] end.
    rewrite IH by (assumption || lia). destruct lo as [|lo]; [reflexivity|]. cbn [pred Nat.leb]. now destruct (lo <=? n).
Qed.
Lemma many1_run : forall c n d t, d <> c -> exists x, many1 (char_ c) (repeat c n ++ d :: t) = (if 1 <=? n then Ok (d :: t) x else Err).
Proof.
  intros c n d t Hd. destruct n as [|n].
  - exists []. cbn [repeat app Nat.leb]. unfold many1, bind. now rewrite char_ne by congruence.
  - exists (repeat c (S n)). cbn [repeat app Nat.leb]. unfold many1, bind. rewrite char_same. unfold pmap, bind, ret.
    rewrite (many0_steps _ _ (fun x => x)); [now rewrite map_id| |now apply char_ne; congruence].
    intros x s I. apply repeat_spec in I. subst x. apply char_same.
Qed.
Lemma space0_inked : forall c s, inked c -> space0 (c :: s) = Ok (c :: s) [].
Proof. intros c s H. apply (space0_line 0). apply H. Qed.

(** ** Words *)
(** what may follow a word: nothing that makes a number a list marker *)
Definition word_end (r : str) : Prop := match r with [] => True | c :: _ => is_digit c = false /\ ~ In c (lit ".)") end.
Section Word.
  Variables (entities : str -> option str) (punct : char -> bool) (upper : char -> str).
  Let cfg := default_config entities punct upper.
  Variables (k : nat) (w r : str).
  Hypothesis Hk : k <= 3.
  Hypothesis Hw : word w.
  Hypothesis Ho : opens_line w.
  Hypothesis Hr : word_end r.
  Let src := rep k c_sp ++ w ++ r.
  Lemma word_chars : forall c, In c w -> inked c /\ plain_char c.
  Proof. intros c I. destruct Hw as [_ H]. rewrite Forall_forall in H. destruct (H c I). split; [now apply white_inked|assumption]. Qed.
  Lemma word_cons : exists c t, w = c :: t /\ inked c /\ plain_char c.
  Proof.
    assert (X : exists c t, w = c :: t). { destruct Hw as [N _]. clear -N. destruct w as [|c t]; [congruence|]. now exists c, t. }
    destruct X as (c & t & E). exists c, t. split; [exact E|]. apply word_chars. rewrite E. now left.
  Qed.
  (** not a run: some other character of the word follows *)
  Lemma not_run : forall c, In c (lit "#=-") -> exists n d t, w = repeat c n ++ d :: t /\ d <> c /\ inked d.
  Proof.
    intros c I. destruct (run_split c w) as [(n & E)|(n & d & t & E & Hd)].
    - destruct Ho as (_ & H & _). now elim (H c n I).
    - exists n, d, t. repeat split; try assumption; apply word_chars; rewrite E; apply in_or_app; right; now left.
  Qed.
  Lemma w_heading : p_heading_v1 cfg src = Err.
  Proof.
    unfold src. destruct (not_run (ch "#") (or_introl eq_refl)) as (n & d & t & E & Hd & Hi).
    destruct k as [|k'].
    2:{ unfold p_heading_v1. apply bind_e. reflexivity. }
    cbn [rep repeat app]. rewrite E, <- app_assoc. cbn [app]. unfold p_heading_v1.
    assert (S1 : forall x, inked x -> forall y, space1 (x :: y) = Err).
    { intros x [_ Hx] y. unfold space1, take_while1. cbn [span]. now rewrite Hx. }
    unfold bind at 1. destruct (Nat.lt_ge_cases n 6) as [L|L].
    - change (chr "#") with (char_ (ch "#")). rewrite many_run by assumption. destruct (1 <=? n); [|reflexivity].
      apply bind_e. cbn [cfg default_config allow_no_space_in_headings]. now apply S1.
    - replace n with (6 + (n - 6)) by lia. rewrite repeat_app, <- app_assoc. cbn [repeat app].
      assert (M : forall s, many_m_n 1 6 (chr "#") (ch "#" :: ch "#" :: ch "#" :: ch "#" :: ch "#" :: ch "#" :: s) = Ok s (repeat (ch "#") 6)).
      { intro s. cbn [many_m_n pred]. unfold chr. repeat (rewrite char_same;
          match goal with |- context [(?a =? ?b)] => destruct (Nat.eqb_spec a b) as [Y|_]; [cbn [List.length] in Y; lia|] end). reflexivity. }
      rewrite M. apply bind_e. cbn [cfg default_config allow_no_space_in_headings]. destruct (n - 6); cbn [repeat app]; [now apply S1|].
      apply S1. repeat split; discriminate.
  Qed.
  Lemma no_level : forall c, In c (lit "#=-") -> forall A (v : A), exists x, value v (many1 (char_ c)) (w ++ r) = x /\
    (x = Err \/ exists d t, x = Ok (d :: t) v /\ inked d).
  Proof.
    intros c I A v. destruct (not_run c I) as (n & d & t & E & Hd & Hi). rewrite E, <- app_assoc. cbn [app].
    destruct (many1_run c n d (t ++ r) Hd) as (x & X). eexists. split; [reflexivity|]. unfold value, pmap, bind. rewrite X.
    destruct (1 <=? n); [|now left]. right. exists d, (t ++ r). now split.
  Qed.
  Lemma w_up3 : up_to_3_spaces src = Ok (w ++ r) (rep k c_sp).
  Proof.
    unfold src. destruct word_cons as (c & t & E & Hc & _). rewrite E. cbn [app]. now apply up3_here.
  Qed.
  Lemma w_level : p_heading_v2_level src = Err.
  Proof.
    unfold p_heading_v2_level, line_terminated, terminated at 1, preceded, bind. rewrite w_up3. unfold terminated, bind.
    change (chr "=") with (char_ (ch "=")). change (chr "-") with (char_ (ch "-")).
    destruct (no_level (ch "=") ltac:(cbn; tauto) _ Level1) as (x & X & HX). destruct (no_level (ch "-") ltac:(cbn; tauto) _ Level2) as (y & Y & HY).
    unfold alt, or_else. rewrite X, Y.
    assert (Z : forall d t, inked d -> match space0 (d :: t) with Ok r0 _ => ret Level1 r0 | Err => Err | Oof => Oof end = Ok (d :: t) Level1).
    { intros d t Hd. now rewrite space0_inked. }
    destruct HX as [->|(d & t & -> & Hd)].
    - destruct HY as [->|(d & t & -> & Hd)]; [reflexivity|]. unfold value, pmap, bind. rewrite space0_inked by assumption. unfold ret. now rewrite eol_char by apply Hd.
    - unfold value, pmap, bind. rewrite space0_inked by assumption. unfold ret. now rewrite eol_char by apply Hd.
  Qed.
  Lemma w_ne : forall c, In c special_chars -> forall t, w <> c :: t.
  Proof. intros c I t E. destruct (word_chars c) as [_ H]; [rewrite E; now left|]. now apply H. Qed.
  Lemma chr_word : forall c, In c special_chars -> char_ c (w ++ r) = Err.
  Proof. intros c I. destruct word_cons as (d & t & E & _ & Hp). rewrite E. cbn [app]. apply char_ne. intros ->. now apply Hp. Qed.
  Lemma w_thematic : p_thematic_break src = Err.
  Proof.
    unfold p_thematic_break. apply unit_e. unfold line_terminated, terminated at 1, preceded, bind. rewrite w_up3. unfold terminated, bind.
    destruct (not_run (ch "-") ltac:(cbn; tauto)) as (n & d & t & E & Hd & Hi).
    assert (U : many_ge 3 (chr "_") (w ++ r) = Err).
    { unfold many_ge. rewrite Nat.add_comm. cbn [plus many_m_n]. unfold chr. rewrite chr_word by (cbn; tauto). reflexivity. }
    assert (S : many_ge 3 (chr "*") (w ++ r) = Err).
    { unfold many_ge. rewrite Nat.add_comm. cbn [plus many_m_n]. unfold chr. rewrite chr_word by (cbn; tauto). reflexivity. }
    unfold alt, or_else. rewrite U, S. unfold many_ge. change (chr "-") with (char_ (ch "-")).
    assert (M : forall hi, n < hi -> many_m_n 3 hi (char_ (ch "-")) (w ++ r) = (if 3 <=? n then Ok (d :: t ++ r) (repeat (ch "-") n) else Err)).
    { intros hi L. rewrite E, <- app_assoc. cbn [app]. now rewrite many_run. }
    rewrite M; [|rewrite E; autorewrite with lens; lia].
    destruct (3 <=? n); [|reflexivity]. unfold value, pmap, bind. rewrite space0_inked by assumption. unfold ret. now rewrite eol_char by apply Hi.
  Qed.
  Lemma w_first : exists c t, w ++ r = c :: t /\ inked c /\ plain_char c /\ c <> ch ">" /\ c <> ch "|".
  Proof.
    destruct word_cons as (c & t & E & Hc & Hp). exists c, (t ++ r). split; [now rewrite E|]. repeat split; try apply Hc; try assumption;
      intros ->; destruct Ho as (H & _); eapply H; try exact E; cbn; tauto.
  Qed.
  (** a list marker must be followed by a space or the end of the line *)
  Lemma digits_split : forall s : str, exists ds t, s = ds ++ t /\ Forall (fun d => is_digit d = true) ds /\ match t with [] => True | c :: _ => is_digit c = false end.
  Proof.
    induction s as [|c s IH]; [now exists [], []|]. destruct (is_digit c) eqn:D.
    - destruct IH as (ds & t & -> & H1 & H2). exists (c :: ds), t. repeat split; [now constructor|assumption].
    - exists [], (c :: s). now repeat split.
  Qed.
  Lemma one_of_stop : one_of (lit ".)") r = Err.
  Proof.
    clear - Hr. destruct r as [|c t]; [reflexivity|]. destruct Hr as [_ H]. unfold one_of, satisfy.
    destruct (existsb (N.eqb c) (lit ".)")) eqn:B; [|reflexivity]. exfalso. apply H. apply existsb_exists in B. destruct B as (y & I & ->%N.eqb_eq). exact I.
  Qed.
  Lemma w_ordered : p_marker_ordered (w ++ r) = Err \/ exists d t m, p_marker_ordered (w ++ r) = Ok (d :: t) m /\ inked d /\ d <> ch "[".
  Proof.
    destruct (digits_split w) as (ds & t & E & Hd & Ht).
    assert (X : span is_digit (w ++ r) = (ds, t ++ r)).
    { rewrite E, <- app_assoc. apply span_app; [exact Hd|]. destruct t as [|c t]; [|exact Ht]. cbn [app].
      clear - Hr. destruct r as [|c r']; [exact I|]. now destruct Hr. }
    unfold p_marker_ordered, pmap, terminated, bind, u64. rewrite X. destruct ds as [|d0 ds]; [now left|].
    destruct (N.leb _ _); [|now left]. unfold value, pmap, bind. destruct t as [|c t].
    - left. cbn [app]. now rewrite one_of_stop.
    - cbn [app]. destruct (one_of (lit ".)") (c :: t ++ r)) as [r1 x| |] eqn:O; [|now left|exfalso; cbn [app] in O; unfold one_of, satisfy in O; destruct (existsb _ _) in O; discriminate].
      assert (Hc : r1 = t ++ r /\ In c (lit ".)")).
      { unfold one_of, satisfy in O. destruct (existsb (N.eqb c) (lit ".)")) eqn:B; [|discriminate]. injection O as <- <-. split; [reflexivity|].
        apply existsb_exists in B. destruct B as (y & I & ->%N.eqb_eq). exact I. }
      destruct Hc as [-> Hc]. right. destruct t as [|e t].
      + destruct Ho as (_ & _ & _ & H). exfalso. apply (H (d0 :: ds) c); [discriminate|assumption|assumption|exact E].
      + exists e, (t ++ r), (Ordered (dec_value (d0 :: ds))). split; [reflexivity|].
        destruct (word_chars e) as [I1 I2]; [rewrite E; apply in_or_app; right; right; now left|]. split; [exact I1|]. apply (plain_ne e (ch "[") I2). vm_compute. tauto.
  Qed.
  Lemma w_marker : p_list_marker (w ++ r) = Err \/ exists r1 m, p_list_marker (w ++ r) = Ok r1 m /\ exists d t, r1 = d :: t /\ inked d /\ d <> ch "[".
  Proof.
    unfold p_list_marker. set (q := alt [p_marker_star; p_marker_plus; p_marker_dash]).
    assert (Q : q (w ++ r) = Err \/ exists d t m, q (w ++ r) = Ok (d :: t) m /\ inked d /\ d <> ch "[").
    { unfold q, alt, or_else. assert (A1 : p_marker_star (w ++ r) = Err) by (apply pmap_e; apply chr_word; vm_compute; tauto). rewrite A1.
      destruct word_cons as (c & t & E & Hc & Hp).
      assert (D : (c = ch "+" \/ c = ch "-") -> exists e u, t = e :: u /\ inked e /\ e <> ch "[").
      { intros Hcc. destruct t as [|e u].
        - exfalso. destruct Ho as (_ & H2 & H3 & _). destruct Hcc as [->| ->]; [now apply H3|]. apply (H2 (ch "-") 1); [cbn; tauto|exact E].
        - exists e, u. split; [reflexivity|]. destruct (word_chars e) as [I1 I2]; [rewrite E; right; now left|]. split; [exact I1|].
          apply (plain_ne e (ch "[") I2). vm_compute. tauto. }
      rewrite E in *. cbn [app]. unfold p_marker_plus, p_marker_dash, value, pmap, bind, chr.
      destruct (N.eqb_spec c (ch "+")) as [->|N1].
      - right. rewrite char_same. destruct D as (e & u & -> & D1 & D2); [now left|]. exists e, (u ++ r), (Bullet Plus). repeat split; try assumption; apply D1.
      - rewrite char_ne by congruence. destruct (N.eqb_spec c (ch "-")) as [->|N2].
        + right. rewrite char_same. destruct D as (e & u & -> & D1 & D2); [now right|]. exists e, (u ++ r), (Bullet Dash). repeat split; try assumption; apply D1.
        + left. now rewrite char_ne by congruence. }
    change (alt [p_marker_ordered; p_marker_star; p_marker_plus; p_marker_dash] (w ++ r)) with (or_else p_marker_ordered q (w ++ r)).
    unfold or_else. destruct w_ordered as [->|(d & t & m & -> & H)].
    - destruct Q as [->|(d & t & m & -> & H)]; [now left|]. right. exists (d :: t), m. split; [reflexivity|]. now exists d, t.
    - right. exists (d :: t), m. split; [reflexivity|]. now exists d, t.
  Qed.
  Lemma w_item_lines : p_list_item_lines src = Err.
  Proof.
    unfold src. pose proof w_marker as M. destruct w_first as (c & t & E & Hc & _). rewrite E in *. now apply item_lines_e.
  Qed.
  Lemma w_starters : alt (starters entities punct upper) src = Err.
  Proof.
    pose proof w_heading as H1. pose proof w_level as H2. pose proof w_thematic as H3. pose proof w_item_lines as H4.
    unfold src in *. destruct w_first as (c & t & E & Hc & Hp & N1 & N2). rewrite E in *. unfold starters. fold cfg.
    assert (P : forall d, In d special_chars -> c <> d) by (intros d I; now apply plain_ne).
    apply alt_err. repeat apply Forall_cons1; try constructor.
    - apply unit_e. exact H1.
    - apply unit_e. exact H2.
    - exact H3.
    - apply unit_e. now apply blockquote_e.
    - apply unit_e. now apply item_e.
    - apply unit_e. apply fenced_e; try assumption; apply P; cbn; tauto.
    - apply unit_e. apply html_e; try assumption; apply P; cbn; tauto.
    - apply unit_e. apply linkdef_e; try assumption; apply P; cbn; tauto.
    - apply unit_e. apply footnote_e; try assumption; apply P; cbn; tauto.
    - apply unit_e. now apply table_e.
    - apply unit_e. now apply blank_e.
  Qed.
End Word.
