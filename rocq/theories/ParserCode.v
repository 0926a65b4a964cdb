(** Exact descriptions of code spans and labels. *)
From Coq Require Import String.
From Verif Require Export ParserLeaf.
Import ListNotations.
Open Scope list_scope.
Local Notation len := (@List.length _).

(** ** Scanning up to a stopper *)
Definition until {A} (stop : parser A) : parser char := preceded (peek (not_ stop)) anychar.
Lemma until_ok : forall A (stop : parser A) c s, stop (c :: s) = Err -> until stop (c :: s) = Ok s c.
Proof. intros A stop c s H. unfold until, preceded, peek, not_, bind. now rewrite H. Qed.
Lemma until_inv : forall A (stop : parser A) s r c, until stop s = Ok r c -> s = c :: r /\ stop s = Err.
Proof.
  intros A stop s r c. unfold until, preceded, peek, not_, bind.
  destruct (stop s) as [r' x| |]; try discriminate. destruct s as [|d s]; cbn; [discriminate|].
  now intros [= -> ->].
Qed.
Lemma until_err : forall A (stop : parser A) s, safe stop -> until stop s = Err -> s = [] \/ exists r x, stop s = Ok r x.
Proof.
  intros A stop s Hs. unfold until, preceded, peek, not_, bind.
  destruct (stop s) as [r' x| |] eqn:E; [right; eauto| |now apply Hs in E].
  destruct s; [now left|discriminate].
Qed.
Lemma many0_until_inv : forall A (stop : parser A), safe stop -> forall s r l, many0 (until stop) s = Ok r l ->
  s = l ++ r /\ (forall a b, l = a ++ b -> b <> [] -> stop (b ++ r) = Err) /\ (r = [] \/ exists r' x, stop r = Ok r' x).
Proof.
  intros A stop Hs s r l E. unfold many0 in E.
  assert (G : forall n s r l, many0_go n (until stop) s = Ok r l ->
    s = l ++ r /\ (forall a b, l = a ++ b -> b <> [] -> stop (b ++ r) = Err) /\ (r = [] \/ exists r' x, stop r = Ok r' x)).
  { clear - Hs. induction n as [|n IH]; intros s r l E; [discriminate|]. cbn [many0_go] in E.
    destruct (until stop s) as [s' c| |] eqn:E1; [| |discriminate].
    - destruct (_ =? _); [discriminate|]. destruct (many0_go n (until stop) s') as [r' l'| |] eqn:E2; try discriminate.
      injection E as -> <-. apply until_inv in E1 as [-> E1]. apply IH in E2 as (-> & E2 & E3).
      split; [reflexivity|]. split; [|exact E3]. intros [|a' a] b El Hb; cbn [app] in El.
      + subst b. exact E1.
      + injection El as -> ->. now apply (E2 a b).
    - injection E as <- <-. split; [reflexivity|]. split; [intros a b El Hb; now destruct a, b|]. now apply until_err. }
  now apply G in E.
Qed.
Lemma many0_until_ok : forall A (stop : parser A) l r,
  (forall a b, l = a ++ b -> b <> [] -> stop (b ++ r) = Err) -> (r = [] /\ stop [] = Err \/ exists r' x, stop r = Ok r' x) ->
  many0 (until stop) (l ++ r) = Ok r l.
Proof.
  intros A stop l r Hl Hr. unfold many0. assert (H : len (l ++ r) < S (len (l ++ r))) by lia. revert H.
  generalize (S (len (l ++ r))). intros n. revert l Hl. induction n as [|n IH]; intros l Hl Hn; [lia|]. cbn [many0_go].
  destruct l as [|c l]; cbn [app] in *.
  - replace (until stop r) with (@Err char); [reflexivity|]. unfold until, preceded, peek, not_, bind.
    destruct Hr as [[-> ->]|(r' & x & ->)]; reflexivity.
  - rewrite until_ok by (apply (Hl [] (c :: l)); [reflexivity|discriminate]).
    destruct (Nat.eqb_spec (len (l ++ r)) (len (c :: l ++ r))) as [E|_]; [cbn in E; lia|].
    rewrite IH; [reflexivity| |cbn in Hn; lia]. intros a b El Hb. apply (Hl (c :: a) b); [now rewrite El|exact Hb].
Qed.
Lemma many1_until_inv : forall A (stop : parser A), safe stop -> forall s r l, many1 (until stop) s = Ok r l ->
  s = l ++ r /\ l <> [] /\ (forall a b, l = a ++ b -> b <> [] -> stop (b ++ r) = Err) /\ (r = [] \/ exists r' x, stop r = Ok r' x).
Proof.
  intros A stop Hs s r l E. unfold many1, bind in E. destruct (until stop s) as [s' c| |] eqn:E1; try discriminate.
  apply until_inv in E1 as [-> E1]. unfold pmap, bind, ret in E.
  destruct (many0 (until stop) s') as [r' l'| |] eqn:E2; try discriminate. injection E as -> <-.
  apply many0_until_inv in E2 as (-> & E2 & E3); [|exact Hs]. split; [reflexivity|]. split; [discriminate|]. split; [|exact E3].
  intros [|a' a] b El Hb; cbn [app] in El; [now subst b|]. injection El as -> ->. now apply (E2 a b).
Qed.
Lemma many1_until_ok : forall A (stop : parser A) l r, l <> [] ->
  (forall a b, l = a ++ b -> b <> [] -> stop (b ++ r) = Err) -> (r = [] /\ stop [] = Err \/ exists r' x, stop r = Ok r' x) ->
  many1 (until stop) (l ++ r) = Ok r l.
Proof.
  intros A stop [|c l] r Hne Hl Hr; [now elim Hne|]. unfold many1, bind. cbn [app].
  rewrite until_ok by (apply (Hl [] (c :: l)); [reflexivity|discriminate]).
  unfold pmap, bind. rewrite many0_until_ok; [reflexivity| |exact Hr].
  intros a b El Hb. apply (Hl (c :: a) b); [now rewrite El|exact Hb].
Qed.
Lemma recognize_ok : forall A (p : parser A) c r x, p (c ++ r) = Ok r x -> recognize p (c ++ r) = Ok r c.
Proof. intros A p c r x H. unfold recognize. rewrite H. f_equal. apply firstn_consumed. Qed.

(** ** Runs of one character *)
Lemma many0_char : forall c n r, (forall r', r <> c :: r') -> many0 (char_ c) (repeat c n ++ r) = Ok r (repeat c n).
Proof.
  intros c n r H. unfold char_. rewrite many0_satisfy, span_app; [reflexivity| |].
  - apply Forall_forall. intros x Hx. apply repeat_spec in Hx as ->. apply N.eqb_refl.
  - destruct r as [|d r]; [exact I|]. apply N.eqb_neq. intros ->. now apply (H r).
Qed.
Lemma many1_char : forall c n r, 0 < n -> (forall r', r <> c :: r') -> many1 (char_ c) (repeat c n ++ r) = Ok r (repeat c n).
Proof.
  intros c [|n] r Hn H; [lia|]. unfold many1, bind. cbn [repeat app]. rewrite char_cons. unfold pmap, bind.
  now rewrite many0_char.
Qed.
Lemma many1_char_inv : forall c s r l, many1 (char_ c) s = Ok r l ->
  exists n, 0 < n /\ l = repeat c n /\ s = repeat c n ++ r /\ forall r', r <> c :: r'.
Proof.
  intros c s r l E. unfold many1, bind in E. destruct (char_ c s) as [s' x| |] eqn:E1; try discriminate.
  pose proof (char_inv _ _ _ _ E1) as ->. assert (x = c) as ->. { rewrite char_cons in E1. now injection E1. }
  unfold pmap, bind, ret in E. unfold char_ in E. rewrite many0_satisfy in E. destruct (span (N.eqb c) s') as [a b] eqn:Es.
  injection E as -> <-. pose proof (span_spec _ _ _ _ Es) as ->. apply span_all in Es as [H1 H2].
  assert (Ea : a = repeat c (len a)).
  { clear - H1. induction H1 as [|x a Hx _ IH]; [reflexivity|]. apply N.eqb_eq in Hx as <-. cbn. now f_equal. }
  exists (S (len a)). split; [lia|]. split; [cbn; now f_equal|]. split; [cbn; now rewrite <- Ea|].
  intros r' ->. now rewrite N.eqb_refl in H2.
Qed.

(** ** Line endings *)
Lemma line_ending_inv : forall s r v, line_ending s = Ok r v -> exists e, s = e ++ r /\ In e [[10%N]; [13%N; 10%N]].
Proof.
  intros s r v E. unfold line_ending in E. cbn [alt] in E. unfold or_else in E.
  destruct (tag [c_nl] s) as [r1 v1| |] eqn:E1; [|apply tag_iff in E as [-> _]|discriminate].
  - injection E as <- <-. apply tag_iff in E1 as [-> _]. eexists; split; [reflexivity|]. now left.
  - eexists; split; [reflexivity|]. right. now left.
Qed.
Lemma line_ending_ok : forall e r, In e [[10%N]; [13%N; 10%N]] -> line_ending (e ++ r) = Ok r e.
Proof. intros e r [<-|[<-|[]]]; reflexivity. Qed.

(** ** Code spans *)
Definition code_stop (n : nat) : parser unit :=
  alt [p_unit (preceded (peek (not_ (pair_ (tag (rep n backtick)) (char_ backtick)))) (tag (rep n backtick)));
       p_unit (pair_ line_ending (pair_ space0 line_ending))].
Lemma code_stop_safe : forall n, safe (code_stop n).
Proof. intro n. apply rel_safe. intro m. unfold code_stop. rel. Qed.
Definition closer (n : nat) : parser str :=
  preceded (peek (not_ (pair_ (tag (rep n backtick)) (char_ backtick)))) (tag (rep n backtick)).
Lemma closer_ok : forall n r, (forall r', r <> 96%N :: r') -> closer n (ticks n ++ r) = Ok r (ticks n).
Proof.
  intros n r H. unfold closer, preceded, peek, not_, pair_, pmap, bind, ret. change (rep n backtick) with (ticks n).
  rewrite tag_app. unfold bind. replace (char_ backtick r) with (@Err char); [apply tag_app|].
  destruct r as [|c r]; [reflexivity|]. rewrite char_ne; [reflexivity|]. intros <-. now apply (H r).
Qed.
Lemma closer_inv : forall n s r x, closer n s = Ok r x -> s = ticks n ++ r /\ forall r', r <> 96%N :: r'.
Proof.
  intros n s r x. unfold closer, preceded, peek, not_, pair_, pmap, bind, ret. change (rep n backtick) with (ticks n).
  destruct (tag (ticks n) s) as [r1 v| |] eqn:E1; [|intros X; congruence|discriminate].
  intros E. destruct (char_ backtick r1) as [r2 y| |] eqn:E2; try discriminate.
  rewrite E1 in E. injection E as -> _. apply tag_iff in E1 as [-> _]. split; [reflexivity|]. intros r' ->.
  now rewrite char_cons in E2.
Qed.
Lemma code_stop_ok : forall n s r x, code_stop n s = Ok r x -> closes n s \/ at_blank_line s.
Proof.
  intros n s r x E. unfold code_stop in E. cbn [alt] in E. unfold or_else, p_unit, value, pmap, bind, ret in E.
  change (preceded (peek (not_ (pair_ (tag (rep n backtick)) (char_ backtick)))) (tag (rep n backtick))) with (closer n) in E.
  destruct (closer n s) as [r1 v| |] eqn:E1; [|clear E1|discriminate].
  - apply closer_inv in E1 as [-> H]. left. now exists r1.
  - right. unfold pair_, pmap, bind, ret in E. destruct (line_ending s) as [s1 e1| |] eqn:E1; try discriminate.
    apply line_ending_inv in E1 as (e & -> & He). unfold space0, take_while in E.
    destruct (span is_space s1) as [w s2] eqn:Es. pose proof (span_spec _ _ _ _ Es) as ->. apply span_all in Es as [Hw _].
    destruct (line_ending s2) as [s3 e2| |] eqn:E2; try discriminate. apply line_ending_inv in E2 as (e' & -> & He').
    exists e, w, e', s3. repeat split; try assumption. eapply Forall_impl; [|exact Hw]. intros c. apply is_space_spec.
Qed.
Lemma code_stop_closes : forall n s, closes n s \/ at_blank_line s -> exists r x, code_stop n s = Ok r x.
Proof.
  intros n s H. unfold code_stop. cbn [alt]. unfold or_else, p_unit, value, pmap, bind, ret.
  change (preceded (peek (not_ (pair_ (tag (rep n backtick)) (char_ backtick)))) (tag (rep n backtick))) with (closer n).
  destruct H as [(r & -> & H)|(e1 & w & e2 & r & -> & H1 & H2 & Hw)].
  - rewrite closer_ok by exact H. eauto.
  - destruct (closer n _) eqn:E1; [eauto| |].
    + unfold pair_, pmap, bind, ret. rewrite (line_ending_ok e1) by exact H1. unfold space0, take_while.
      rewrite (span_app is_space w).
      * rewrite (line_ending_ok e2) by exact H2. eauto.
      * eapply Forall_impl; [|exact Hw]. intros c. apply is_space_spec.
      * destruct H2 as [<-|[<-|[]]]; reflexivity.
    + exfalso. revert E1. apply (rel_safe _ (closer n)). intro. unfold closer. rel.
Qed.
Lemma code_stop_err : forall n s, code_stop n s = Err <-> ~ closes n s /\ ~ at_blank_line s.
Proof.
  intros n s. split.
  - intros E. split; intros H; destruct (code_stop_closes n s) as (r & x & E'); auto; congruence.
  - intros [H1 H2]. destruct (code_stop n s) as [r x| |] eqn:E; [apply code_stop_ok in E; tauto|reflexivity|now apply code_stop_safe in E].
Qed.

Lemma code_norm_fun : forall s, code_norm s (replace_nl (replace_crlf s)).
Proof.
  intros s. assert (H : len s < S (len s)) by lia. revert H. generalize (S (len s)). intros n. revert s.
  induction n as [|n IH]; intros s H; [lia|]. destruct s as [|c [|d s]]; cbn [replace_crlf].
  - constructor.
  - unfold replace_nl. cbn [map]. destruct (N.eqb_spec c c_nl) as [->|N]; [apply code_lf; constructor|].
    apply code_char; [exact N|congruence|constructor].
  - cbn in H. destruct (N.eqb_spec c c_cr) as [->|Nc]; cbn [andb].
    + destruct (N.eqb_spec d c_nl) as [->|Nd].
      * unfold replace_nl. cbn [map]. apply code_crlf. apply IH. lia.
      * change (replace_nl (c_cr :: replace_crlf (d :: s))) with (c_cr :: replace_nl (replace_crlf (d :: s))).
        apply code_char; [discriminate|intros _ u E; injection E as -> _; now apply Nd|apply IH; cbn; lia].
    + change (replace_nl (c :: replace_crlf (d :: s))) with ((if N.eqb c c_nl then c_sp else c) :: replace_nl (replace_crlf (d :: s))).
      cbn [replace_nl map]. destruct (N.eqb_spec c c_nl) as [->|N]; [apply code_lf; apply IH; cbn; lia|].
      replace (if N.eqb c c_nl then c_sp else c) with c by (destruct (N.eqb_spec c c_nl); congruence).
      apply code_char; [exact N|intros E; now elim Nc|apply IH; cbn; lia].
Qed.
Lemma code_norm_det : forall s t, code_norm s t -> forall u, code_norm s u -> t = u.
Proof.
  induction 1 as [|s t _ IH|s t _ IH|c s t Hc Hs _ IH]; intros u Hu; inversion Hu; subst; f_equal; auto;
    try match goal with H : 10%N <> 10%N |- _ => now elim H end;
    try match goal with H : 13%N = 13%N -> forall u, 10%N :: ?s <> _ |- _ => now elim (H eq_refl s) end.
Qed.
Lemma trim_nil_ws : forall s, trim s = [] <-> Forall (fun c => is_whitespace c = true) s.
Proof.
  intros s. unfold trim, trim_start. split.
  - induction s as [|c s IH]; intros H; [constructor|]. cbn in H. destruct (is_whitespace c) eqn:Hc.
    + constructor; [exact Hc|now apply IH].
    + exfalso. unfold trim_end in H. cbn in H. rewrite Hc in H. destruct (trim_end_by is_whitespace s); discriminate.
  - intros H. induction H as [|c s Hc _ IH]; [reflexivity|]. cbn. now rewrite Hc.
Qed.
Lemma str_eqb_spec : forall a b, str_eqb a b = true <-> a = b.
Proof.
  induction a as [|x a IH]; intros [|y b]; cbn; try (split; congruence); try easy.
  rewrite Bool.andb_true_iff, N.eqb_eq, IH. split; [now intros [-> ->]|now intros [= -> ->]].
Qed.
Lemma strip_code_spec : forall raw content, code_content raw content <-> content = strip_code (replace_nl (replace_crlf raw)).
Proof.
  intros raw content. set (t := replace_nl (replace_crlf raw)).
  assert (Ht : code_norm raw t) by apply code_norm_fun. clearbody t.
  assert (X : (exists u, t = 32%N :: u ++ [32%N] /\ Exists (fun c => is_whitespace c = false) u /\ strip_code t = u) \/
    (~ (exists u, t = 32%N :: u ++ [32%N] /\ Exists (fun c => is_whitespace c = false) u) /\ strip_code t = t)).
  { unfold strip_code. destruct (starts_with [c_sp] t && last_is c_sp t && negb (str_eqb (trim t) [])) eqn:E.
    - left. apply andb_prop in E as [E E3]. apply andb_prop in E as [E1 E2].
      destruct t as [|c t]; [discriminate|]. cbn [starts_with] in E1. destruct (N.eqb_spec c_sp c) as [<-|]; [|discriminate].
      destruct (rev t) as [|d v] eqn:Er.
      + assert (t = []) as -> by (rewrite <- (rev_involutive t), Er; reflexivity). discriminate.
      + assert (Et : t = rev v ++ [d]) by (rewrite <- (rev_involutive t), Er; reflexivity). subst t. clear Er.
        unfold last_is in E2. cbn [rev] in E2. rewrite rev_app_distr in E2. cbn in E2. apply N.eqb_eq in E2 as ->.
        cbn [tl]. rewrite removelast_last. exists (rev v). split; [reflexivity|]. split; [|reflexivity].
        apply Bool.negb_true_iff in E3. apply Exists_exists.
        destruct (existsb (fun c => negb (is_whitespace c)) (rev v)) eqn:Ex.
        * apply existsb_exists in Ex as (x & Hx & Hx'). exists x. split; [exact Hx|now apply Bool.negb_true_iff].
        * exfalso. assert (Y : trim (c_sp :: rev v ++ [c_sp]) = []).
          { apply trim_nil_ws. constructor; [reflexivity|]. apply Forall_app. split; [|now repeat constructor].
            apply Forall_forall. intros x Hx. destruct (is_whitespace x) eqn:W; [reflexivity|].
            assert (existsb (fun c => negb (is_whitespace c)) (rev v) = true) by (apply existsb_exists; exists x; now rewrite W). congruence. }
          rewrite Y in E3. discriminate.
    - right. split; [|reflexivity]. intros (u & -> & Hu). cbn [starts_with] in E. rewrite N.eqb_refl in E. cbn [andb] in E.
      unfold last_is in E. cbn [rev] in E. rewrite rev_app_distr in E. cbn [rev app] in E. rewrite N.eqb_refl in E. cbn [andb] in E.
      apply Bool.negb_false_iff in E. apply str_eqb_spec in E. apply trim_nil_ws in E.
      inversion E as [|? ? _ E']; subst. apply Forall_app in E' as [E' _].
      apply Exists_exists in Hu as (x & Hx & Hx'). rewrite Forall_forall in E'. now rewrite (E' x Hx) in Hx'. }
  split.
  - intros (t' & Hn & H). rewrite (code_norm_det _ _ Hn t Ht) in H. clear t' Hn. destruct H as [[E H]|[E H]].
    + destruct X as [(u & E' & _ & ->)|[X _]]; [|elim X; eauto]. rewrite E in E'. injection E' as E'. now apply app_inj_tail in E' as [-> _].
    + destruct X as [(u & E' & Hu & _)|[_ ->]]; [elim H; eauto|now symmetry].
  - intros ->. exists t. split; [exact Ht|]. destruct X as [(u & E' & Hu & ->)|[X ->]]; [left|right]; tauto.
Qed.

Theorem code_span_exact : forall s r content, p_code_span s = Ok r content <->
  exists n raw, code_span_source n raw r s /\ code_content raw content.
Proof.
  intros s r content. unfold p_code_span. cbv zeta. split.
  - unfold bind at 1. unfold recognize at 1. destruct (many1 (char_ backtick) s) as [s1 l| |] eqn:E1; try discriminate.
    apply many1_char_inv in E1 as (n & Hn & -> & -> & Hs1). rewrite firstn_consumed. rewrite repeat_length.
    fold (closer n). fold (@until unit). unfold bind at 1. unfold recognize at 1.
    change (many1 (preceded (peek (not_ (alt [p_unit (closer n); p_unit (pair_ line_ending (pair_ space0 line_ending))]))) anychar))
      with (many1 (until (code_stop n))).
    destruct (many1 (until (code_stop n)) s1) as [s2 raw| |] eqn:E2; try discriminate.
    apply many1_until_inv in E2 as (-> & Hne & Hall & Hstop); [|apply code_stop_safe]. rewrite firstn_consumed.
    unfold bind at 1. destruct (tag (rep n backtick) s2) as [s3 x| |] eqn:E3; try discriminate.
    apply tag_iff in E3 as [-> _]. change (rep n backtick) with (ticks n) in *. intros [= <- <-].
    exists n, raw. split; [|now apply strip_code_spec]. split; [reflexivity|]. split; [exact Hn|]. split; [exact Hne|].
    split; [intros t ->; now apply (Hs1 (t ++ ticks n ++ s3))|]. split.
    + intros t ->. destruct Hstop as [Hst|(r' & x' & Hst)]; [destruct n; [lia|discriminate]|].
      apply code_stop_ok in Hst as [(v & Ev & Hv)|Hbl].
      * apply app_inv_head in Ev as <-. now apply (Hv t).
      * destruct n; [lia|]. destruct Hbl as (e1 & w & e2 & v & Ev & [<-|[<-|[]]] & _); discriminate Ev.
    + intros a b Eab Hb. apply code_stop_err. now apply (Hall a b).
  - intros (n & raw & (-> & Hn & Hne & Hraw & Hr & Hall) & Hc).
    unfold bind at 1. rewrite (recognize_ok _ _ (repeat backtick n) _ (repeat backtick n)).
    2:{ apply many1_char; [exact Hn|]. intros r' E. destruct raw as [|c raw]; [now elim Hne|]. injection E as -> _. now apply (Hraw raw). }
    rewrite repeat_length. unfold bind at 1.
    change (many1 (preceded (peek (not_ (alt [p_unit (preceded (peek (not_ (pair_ (tag (rep n backtick)) (char_ backtick)))) (tag (rep n backtick))); p_unit (pair_ line_ending (pair_ space0 line_ending))]))) anychar))
      with (many1 (until (code_stop n))).
    rewrite (recognize_ok _ _ raw _ raw).
    + unfold bind at 1. change (rep n backtick) with (ticks n). rewrite tag_app. unfold ret. f_equal. symmetry. now apply strip_code_spec.
    + apply many1_until_ok; [exact Hne| |].
      * intros a b Eab Hb. apply code_stop_err. now apply (Hall a b).
      * right. apply code_stop_closes. left. now exists r.
Qed.

(** ** Labels *)
Definition label_step : parser char :=
  preceded (peek (not_ (chr "]"))) (alt [value (ch "]") (tag (lit "\]")); anychar]).
Lemma label_step_inv : forall s r c, label_step s = Ok r c ->
  (s = 92%N :: 93%N :: r /\ c = 93%N) \/ (s = c :: r /\ c <> 93%N /\ (c = 92%N -> forall u, r <> 93%N :: u)).
Proof.
  intros s r c. unfold label_step, preceded, peek, not_, bind. destruct (chr "]" s) as [x y| |] eqn:E1; try discriminate.
  cbn [alt]. unfold or_else, value, pmap, bind, ret. destruct (tag (lit "\]") s) as [r1 v| |] eqn:E2; [| |discriminate].
  - intros [= <- <-]. left. now apply tag_iff in E2 as [-> _].
  - intros E. right. destruct s as [|d s]; [discriminate|]. cbn in E. injection E as -> ->.
    split; [reflexivity|]. split; [intros ->; discriminate E1|]. intros -> u ->. discriminate E2.
Qed.
Lemma label_step_esc : forall r, label_step (92%N :: 93%N :: r) = Ok r 93%N.
Proof. reflexivity. Qed.
Lemma label_step_char : forall c r, c <> 93%N -> (c = 92%N -> forall u, r <> 93%N :: u) -> label_step (c :: r) = Ok r c.
Proof.
  intros c r Hc H. unfold label_step, preceded, peek, not_, bind. unfold chr. rewrite char_ne by (change (ch "]") with 93%N; congruence).
  cbn [alt]. unfold or_else, value, pmap, bind, ret. rewrite tag_err; [reflexivity|]. intros u E. injection E as -> ->. now apply (H eq_refl u).
Qed.
Lemma label_step_stop : forall r, label_step (93%N :: r) = Err.
Proof. reflexivity. Qed.
Lemma label_many_inv : forall n s r l, many0_go n label_step s = Ok (93%N :: r) l ->
  exists raw, s = raw ++ 93%N :: r /\ label_text raw l.
Proof.
  induction n as [|n IH]; intros s r l E; [discriminate|]. cbn [many0_go] in E.
  destruct (label_step s) as [s' c| |] eqn:E1; [| |discriminate].
  - destruct (_ =? _); [discriminate|]. destruct (many0_go n label_step s') as [r' l'| |] eqn:E2; try discriminate.
    injection E as -> <-. apply IH in E2 as (raw & -> & H).
    apply label_step_inv in E1 as [[-> ->]|(-> & Hc & Hn)].
    + exists (92%N :: 93%N :: raw). split; [reflexivity|now constructor].
    + exists (c :: raw). split; [reflexivity|]. constructor; [exact Hc| |exact H]. intros E.
      destruct raw as [|d u]; [now elim (Hn E r)|]. exists d, u. split; [reflexivity|]. intros ->. now apply (Hn E (u ++ 93%N :: r)).
  - injection E as -> <-. exists []. split; [reflexivity|constructor].
Qed.
Lemma label_many_ok : forall raw l, label_text raw l -> forall n r, len (raw ++ 93%N :: r) < n ->
  many0_go n label_step (raw ++ 93%N :: r) = Ok (93%N :: r) l.
Proof.
  induction 1 as [|s t _ IH|c s t Hc Hs _ IH]; intros [|n] r Hn; try (cbn in Hn; lia); cbn [app many0_go] in *.
  - reflexivity.
  - rewrite label_step_esc. cbn [List.length] in Hn. match goal with |- context [?a =? ?b] => destruct (Nat.eqb_spec a b) as [E|_] end; [exfalso; unfold char, str in *; cbn [List.length] in E; lia|].
    rewrite IH by (unfold char, str in *; lia). reflexivity.
  - rewrite label_step_char; [|exact Hc|].
    + cbn [List.length] in Hn. match goal with |- context [?a =? ?b] => destruct (Nat.eqb_spec a b) as [E|_] end; [exfalso; unfold char, str in *; cbn [List.length] in E; lia|].
      rewrite IH by (unfold char, str in *; lia). reflexivity.
    + intros E u Eu. destruct (Hs E) as (d & v & -> & Hd). injection Eu as Eu _. congruence.
Qed.
Lemma label_ok_fits : forall l, label_ok l = true <-> label_fits l.
Proof.
  intros l. unfold label_ok, label_fits. rewrite Bool.andb_true_iff, Nat.ltb_lt, existsb_exists, Exists_exists.
  assert (X : forall c, negb (N.eqb c 32) && negb (N.eqb c 10) = true <-> c <> 32%N /\ c <> 10%N).
  { intro c. now rewrite Bool.andb_true_iff, !Bool.negb_true_iff, !N.eqb_neq. }
  split; intros [A B]; (split; [try exact B|]); try exact A.
  - destruct A as (x & H1 & H2). exists x. split; [exact H1|now apply X].
  - destruct B as (x & H1 & H2). exists x. split; [exact H1|now apply X].
Qed.
Theorem link_label_exact : forall (rec : parser (list inline)) s r x, p_link_label rec s = Ok r x <->
  exists raw l r', s = 91%N :: raw ++ 93%N :: r /\ label_text raw l /\ label_fits l /\ rec l = Ok r' x.
Proof.
  intros rec s r x. unfold p_link_label, delimited, preceded, terminated. unfold bind at 1.
  change (lit "[") with [91%N]. change (lit "]") with [93%N].
  assert (ML : p_label_chars = verify (many1 label_step) label_ok) by reflexivity. rewrite ML. clear ML.
  assert (M1 : forall s, many1 label_step s = match many0 label_step s with Ok r [] => Err | e => e end).
  { clear. intros s. unfold many1, many0 at 2, bind, pmap, ret. cbn [many0_go].
    destruct (label_step s) as [r c| |] eqn:E; [|reflexivity|reflexivity].
    assert (L : len r < len s) by (apply label_step_inv in E as [[-> _]|[-> _]]; cbn; lia).
    destruct (Nat.eqb_spec (len r) (len s)) as [|_]; [lia|].
    assert (G : forall n m s, len s < n -> len s < m -> many0_go n label_step s = many0_go m label_step s).
    { clear. induction n as [|n IH]; intros [|m] s H1 H2; try lia. cbn [many0_go].
      destruct (label_step s) as [r c| |] eqn:E; try reflexivity.
      assert (L : len r < len s) by (apply label_step_inv in E as [[-> _]|[-> _]]; cbn; lia).
      destruct (_ =? _); [reflexivity|]. now rewrite (IH m r) by lia. }
    unfold bind, many0. rewrite (G (S (len r)) (len s) r) by (unfold char, str in *; lia). now destruct (many0_go (len s) label_step r). }
  split.
  - destruct (tag [91%N] s) as [s1 v1| |] eqn:E1; try discriminate. apply tag_iff in E1 as [-> _].
    unfold bind at 1. unfold bind at 1. unfold verify, bind at 1. rewrite M1.
    destruct (many0 label_step s1) as [s2 [|c l]| |] eqn:E2; try discriminate.
    destruct (label_ok (c :: l)) eqn:E3; [|discriminate]. unfold ret at 1. unfold nested.
    destruct (rec (c :: l)) as [r' y| |] eqn:E4; try discriminate. unfold value, pmap, bind, ret.
    destruct (tag [93%N] s2) as [s3 v3| |] eqn:E5; try discriminate. intros [= -> ->]. apply tag_iff in E5 as [-> _].
    apply label_many_inv in E2 as (raw & -> & H). exists raw, (c :: l), r'. split; [reflexivity|]. split; [exact H|].
    split; [now apply label_ok_fits|exact E4].
  - intros (raw & l & r' & -> & H & Hf & Hr). change (91%N :: raw ++ 93%N :: r) with ([91%N] ++ (raw ++ 93%N :: r)).
    rewrite tag_app. unfold bind at 1. unfold bind at 1. unfold verify, bind at 1. rewrite M1.
    assert (E : many0 label_step (raw ++ 93%N :: r) = Ok (93%N :: r) l) by (apply label_many_ok; [exact H|apply Nat.lt_succ_diag_r]). rewrite E.
    destruct l as [|c l]; [destruct Hf as [_ Hf]; inversion Hf|].
    apply label_ok_fits in Hf. rewrite Hf. unfold ret at 1. unfold nested. rewrite Hr. reflexivity.
Qed.
