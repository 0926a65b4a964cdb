(** Exact descriptions of small parsers: alert markers, numeric character
    references, labels, code spans. *)
From Coq Require Import String.
From Verif Require Export ParserHooks.
Import ListNotations.
Open Scope list_scope.
Local Notation len := (@List.length _).

(** ** Basic facts *)
Lemma tag_iff : forall t s r v, tag t s = Ok r v <-> s = t ++ r /\ v = t.
Proof.
  intros t s r v. unfold tag, tag_by.
  assert (X : forall t s r, tag_go N.eqb t s = Some r <-> s = t ++ r).
  { clear. induction t as [|x t IH]; intros s r; cbn [tag_go]; [split; [now intros [= ->]|now intros ->]|].
    destruct s as [|y s]; [split; discriminate|]. destruct (N.eqb_spec x y) as [<-|N].
    - rewrite IH. split; [now intros ->|now intros [= ->]].
    - split; [discriminate|]. intros [= -> _]. now elim N. }
  destruct (tag_go N.eqb t s) as [r'|] eqn:E.
  - apply X in E as ->. rewrite firstn_app, Nat.sub_diag, firstn_all, app_nil_r. split.
    + intros [= <- <-]. now split.
    + intros [H ->]. apply app_inv_head in H as ->. reflexivity.
  - split; [discriminate|]. intros [H _]. apply X in H. congruence.
Qed.
Lemma tag_app : forall t r, tag t (t ++ r) = Ok r t. Proof. intros. now apply tag_iff. Qed.
Lemma tag_safe : forall t s, tag t s <> Oof.
Proof. intros t s. unfold tag, tag_by. destruct tag_go; discriminate. Qed.
Lemma tag_err : forall t s, (forall r, s <> t ++ r) -> tag t s = Err.
Proof.
  intros t s H. destruct (tag t s) eqn:E; [|reflexivity|now apply tag_safe in E].
  apply tag_iff in E as [E _]. now apply H in E.
Qed.
Lemma char_cons : forall c s, char_ c (c :: s) = Ok s c.
Proof. intros. unfold char_, satisfy. now rewrite N.eqb_refl. Qed.
Lemma char_ne : forall c d s, c <> d -> char_ c (d :: s) = Err.
Proof. intros c d s H. unfold char_, satisfy. destruct (N.eqb_spec c d); [contradiction|reflexivity]. Qed.
Lemma char_inv : forall c s r x, char_ c s = Ok r x -> s = c :: r.
Proof.
  intros c s r x E. unfold char_, satisfy in E. destruct s as [|d s]; [discriminate|].
  destruct (N.eqb_spec c d) as [<-|]; [|discriminate]. now injection E as <- _.
Qed.
Lemma span_app : forall f a b, Forall (fun x => f x = true) a ->
  match b with [] => True | c :: _ => f c = false end -> span f (a ++ b) = (a, b).
Proof.
  intros f a b H Hb. induction H as [|x a Hx _ IH]; cbn [app span].
  - destruct b as [|c b]; [reflexivity|]. cbn [span]. now rewrite Hb.
  - now rewrite Hx, IH.
Qed.
Lemma many0_satisfy : forall f s, many0 (satisfy f) s = let (a, b) := span f s in Ok b a.
Proof.
  intros f s. unfold many0. assert (H : len s < S (len s)) by lia. revert H.
  generalize (S (len s)) as n. intros n. revert s. induction n as [|n IH]; intros s H; [lia|].
  cbn [many0_go]. destruct s as [|c s]; [reflexivity|]. cbn [satisfy span]. destruct (f c); [|reflexivity].
  destruct (Nat.eqb_spec (len s) (len (c :: s))) as [E|_]; [cbn in E; lia|].
  rewrite IH by (cbn in H; lia). now destruct (span f s).
Qed.
Lemma take1_app : forall f a b, a <> [] -> Forall (fun x => f x = true) a ->
  match b with [] => True | c :: _ => f c = false end -> take_while1 f (a ++ b) = Ok b a.
Proof. intros f a b Ha H Hb. unfold take_while1. rewrite (span_app _ _ _ H Hb). now destruct a. Qed.
Lemma take1_inv : forall f s r a, take_while1 f s = Ok r a -> s = a ++ r /\ a <> [] /\ Forall (fun x => f x = true) a
  /\ match r with [] => True | c :: _ => f c = false end.
Proof.
  intros f s r a E. unfold take_while1 in E. destruct (span f s) as [x y] eqn:Es.
  pose proof (span_spec _ _ _ _ Es). apply span_all in Es as [H1 H2].
  destruct x; [discriminate|]. injection E as <- <-. repeat split; try assumption. discriminate.
Qed.
Lemma firstn_consumed : forall (c r : str), firstn (len (c ++ r) - len r) (c ++ r) = c.
Proof.
  intros c r. rewrite app_length. replace (len c + len r - len r) with (len c) by lia.
  rewrite firstn_app, Nat.sub_diag, firstn_all. apply app_nil_r.
Qed.

(** ** Alert markers *)
Lemma ident_chars : forall x, (is_alnum x || N.eqb x (ch "_")) = true <-> is_alnum x = true \/ x = ch "_".
Proof. intro x. rewrite Bool.orb_true_iff, N.eqb_eq. reflexivity. Qed.
Lemma custom_name_ok : forall name r, identifier name ->
  match r with [] => True | c :: _ => is_alnum c = false /\ c <> ch "_" end ->
  p_custom_alert_name (name ++ r) = Ok r name.
Proof.
  intros name r (c & t & -> & Hc & Ht) Hr. unfold p_custom_alert_name, recognize, pair_, bind, alpha1, take_while1.
  destruct (span is_alpha ((c :: t) ++ r)) as [a b] eqn:Es.
  assert (Ha : a <> []). { cbn [app span] in Es. rewrite Hc in Es. destruct (span is_alpha (t ++ r)). injection Es as <- _. discriminate. }
  pose proof (span_spec _ _ _ _ Es) as E. apply span_all in Es as [H1 _].
  destruct a as [|x a]; [now elim Ha|]. unfold pmap, bind, ret. rewrite many0_satisfy.
  assert (exists a', t = a ++ a' /\ b = a' ++ r) as (a' & -> & ->).
  { cbn [app] in E. injection E as <- E. clear - E H1 Hr.
    apply app_eq_app in E as (l & [[-> ->]|[-> ->]]); [now exists l|].
    exists []. destruct l as [|y l].
    - now rewrite !app_nil_r.
    - exfalso. cbn [app] in Hr. destruct Hr as [Hr _].
      inversion H1 as [|? ? _ H2]; subst. apply Forall_app in H2 as [_ H2]. inversion H2; subst.
      unfold is_alnum in Hr. now rewrite H3 in Hr. }
  apply Forall_app in Ht as [_ Ht].
  rewrite (span_app _ a' r).
  - f_equal. cbn [app] in E. injection E as <- _.
    change ((c :: a ++ a') ++ r) with ((c :: (a ++ a')) ++ r). apply firstn_consumed.
  - eapply Forall_impl; [|exact Ht]. intros y Hy. now apply ident_chars.
  - destruct r as [|y r]; [exact I|]. destruct Hr as [Hr1 Hr2]. rewrite Hr1. cbn. now apply N.eqb_neq.
Qed.
Lemma custom_name_inv : forall s r name, p_custom_alert_name s = Ok r name -> s = name ++ r /\ identifier name.
Proof.
  intros s r name E. unfold p_custom_alert_name, recognize, pair_, bind, alpha1 in E.
  destruct (take_while1 is_alpha s) as [r1 a| |] eqn:E1; try discriminate. apply take1_inv in E1 as (-> & Ha & H1 & _).
  unfold pmap, bind, ret in E. rewrite many0_satisfy in E. destruct (span _ r1) as [x y] eqn:Es.
  pose proof (span_spec _ _ _ _ Es) as ->. apply span_all in Es as [H2 _]. injection E as <- <-.
  rewrite app_assoc, firstn_consumed. split; [reflexivity|].
  destruct a as [|c a]; [now elim Ha|]. inversion H1; subst. exists c, (a ++ x). repeat split; [assumption|].
  apply Forall_app. split; (eapply Forall_impl; [|eassumption]); cbv beta; intros z Hz.
  - left. unfold is_alnum. now rewrite Hz.
  - now apply ident_chars.
Qed.
Lemma alert_marker_iff : forall u ty, p_alert_marker u = Ok [] ty <->
  exists name, u = lit "[!" ++ name ++ lit "]" /\ alert_of_name name ty.
Proof.
  intros u ty. unfold p_alert_marker, delimited, preceded, terminated. unfold bind at 1. split.
  - intros E. destruct (tag (lit "[!") u) as [v x| |] eqn:E1; try discriminate. apply tag_iff in E1 as [-> _].
    unfold bind at 1 in E.
    match type of E with (match ?p v with _ => _ end) = _ => destruct (p v) as [w t| |] eqn:E2 end; try discriminate.
    unfold value, pmap, bind, ret in E. destruct (tag (lit "]") w) as [w' y| |] eqn:E3; try discriminate.
    injection E as -> ->. apply tag_iff in E3 as [-> _]. rewrite app_nil_r in E2.
    assert (exists name, v = name ++ lit "]" /\ alert_of_name name ty) as (name & -> & H); [|now exists name].
    cbn [alt] in E2. unfold or_else, value, pmap, bind, ret in E2.
    repeat match type of E2 with
      match (match tag ?n v with _ => _ end) with _ => _ end = _ =>
        let F := fresh "F" in
        destruct (tag n v) eqn:F; try discriminate;
        [ injection E2 as <- <-; apply tag_iff in F as [-> _]; eexists; split; [reflexivity|]; left; cbn; tauto | ] end.
    destruct (p_custom_alert_name v) as [v' nm| |] eqn:E3; try discriminate. injection E2 as -> <-.
    apply custom_name_inv in E3 as [-> Hid]. exists nm. split; [reflexivity|]. right. split; [exact Hid|]. split; [reflexivity|].
    intros std t rest Hin ->.
    assert (G : forall n, tag n (n ++ (rest ++ lit "]")) = Err -> False) by (intros n X; now rewrite tag_app in X).
    rewrite <- !app_assoc in *. cbn in Hin.
    destruct Hin as [[= <- <-]|[[= <- <-]|[[= <- <-]|[[= <- <-]|[[= <- <-]|[]]]]]]; eapply G; eassumption.
  - intros (name & -> & H). rewrite tag_app. unfold bind at 1.
    assert (X : forall (t : alert_type) p, p (name ++ lit "]") = Ok (lit "]") t -> t = ty ->
      match p (name ++ lit "]") with Ok r a => value a (tag (lit "]")) r | Err => Err | Oof => Oof end = Ok [] ty).
    { intros t p E ->. rewrite E. reflexivity. }
    eapply X; [|reflexivity]. clear X. cbn [alt]. unfold or_else, value, pmap, bind, ret.
    destruct H as [Hin|(Hid & -> & Hno)].
    + cbn in Hin. destruct Hin as [[= <- <-]|[[= <- <-]|[[= <- <-]|[[= <- <-]|[[= <- <-]|[]]]]]]; reflexivity.
    + assert (NT : forall n t, In (n, t) standard_alerts -> tag n (name ++ lit "]") = Err).
      { intros n t Hin. apply tag_err. intros r E.
        apply app_eq_app in E as (l & [[-> _]|[-> E]]); [now apply (Hno n t l Hin)|].
        destruct l as [|x l]; [apply (Hno (name ++ []) t [] Hin); now rewrite !app_nil_r|].
        destruct l; [|destruct l; discriminate]. injection E as <- _.
        cbn in Hin. assert (L : forall a b : str, a ++ [ch "]"] = b -> last b 0%N = ch "]") by (intros a b <-; apply last_last).
        destruct Hin as [[= X _]|[[= X _]|[[= X _]|[[= X _]|[[= X _]|[]]]]]]; symmetry in X; apply L in X; discriminate X. }
      rewrite (NT (lit "NOTE") Note), (NT (lit "TIP") Tip), (NT (lit "IMPORTANT") Important),
        (NT (lit "WARNING") Warning), (NT (lit "CAUTION") Caution) by (cbn; tauto).
      rewrite custom_name_ok; [reflexivity|exact Hid|]. cbn. split; [reflexivity|discriminate].
Qed.
Theorem alert_marker_exact : forall cfg m ty, parse_alert_marker cfg m = Some ty <->
  exists name, to_uppercase cfg (trim m) = lit "[!" ++ name ++ lit "]" /\ alert_of_name name ty.
Proof.
  intros cfg m ty. unfold parse_alert_marker. rewrite <- alert_marker_iff.
  destruct (p_alert_marker (to_uppercase cfg (trim m))) as [[|] t| |]; split; try discriminate; congruence.
Qed.
(** trimming *)
Lemma trim_start_ws : forall a s, Forall (fun c => is_whitespace c = true) a -> trim_start (a ++ s) = trim_start s.
Proof. intros a s H. induction H as [|c a Hc _ IH]; [reflexivity|]. unfold trim_start in *. cbn. now rewrite Hc. Qed.
Lemma trim_end_ws : forall b, Forall (fun c => is_whitespace c = true) b -> trim_end b = [].
Proof. intros b H. induction H as [|c b Hc _ IH]; [reflexivity|]. unfold trim_end in *. cbn. now rewrite IH, Hc. Qed.
Lemma trim_end_app : forall s c b, is_whitespace c = false -> Forall (fun c => is_whitespace c = true) b ->
  trim_end (s ++ c :: b) = s ++ [c].
Proof.
  intros s c b Hc Hb. induction s as [|x s IH]; cbn [app].
  - unfold trim_end. cbn. change (trim_end_by is_whitespace b) with (trim_end b). now rewrite (trim_end_ws b Hb), Hc.
  - unfold trim_end in *. cbn. rewrite IH. now destruct s.
Qed.
Lemma trim_frame : forall a b c s d, is_whitespace c = false -> is_whitespace d = false ->
  Forall (fun c => is_whitespace c = true) a -> Forall (fun c => is_whitespace c = true) b ->
  trim (a ++ (c :: s ++ [d]) ++ b) = c :: s ++ [d].
Proof.
  intros a b c s d Hc Hd Ha Hb. unfold trim. rewrite trim_start_ws by exact Ha.
  unfold trim_start. cbn. rewrite Hc.
  replace ((c :: (s ++ [d]) ++ b)) with ((c :: s) ++ d :: b) by (cbn; now rewrite <- app_assoc).
  rewrite trim_end_app by assumption. reflexivity.
Qed.
Lemma to_uppercase_ascii : forall cfg s, Forall (fun c => is_ascii c = true) s ->
  to_uppercase cfg s = map to_upper_ascii s.
Proof. intros cfg s H. induction H as [|c s Hc _ IH]; [reflexivity|]. unfold to_uppercase in *. cbn. now rewrite Hc, IH. Qed.
Theorem alert_standard : forall cfg name ty w a b,
  In (name, ty) standard_alerts -> map to_upper_ascii w = name ->
  Forall (fun c => is_whitespace c = true) a -> Forall (fun c => is_whitespace c = true) b ->
  parse_alert_marker cfg (a ++ lit "[!" ++ w ++ lit "]" ++ b) = Some ty.
Proof.
  intros cfg name ty w a b Hin Hw Ha Hb. apply alert_marker_exact. exists name.
  split; [|now left].
  replace (a ++ lit "[!" ++ w ++ lit "]" ++ b) with (a ++ (ch "[" :: (ch "!" :: w) ++ [ch "]"]) ++ b)
    by (cbn; now rewrite <- !app_assoc).
  rewrite trim_frame; try assumption; try reflexivity.
  rewrite to_uppercase_ascii.
  - cbn [map app]. rewrite map_app, Hw. reflexivity.
  - assert (X : Forall (fun c => is_ascii c = true) w).
    { assert (Y : Forall (fun c => is_upper c = true) name).
      { cbn in Hin. destruct Hin as [[= <- <-]|[[= <- <-]|[[= <- <-]|[[= <- <-]|[[= <- <-]|[]]]]]]; repeat constructor. }
      rewrite <- Hw in Y. clear - Y. induction w as [|c w IH]; [constructor|]. inversion Y; subst. constructor; [|now apply IH].
      unfold to_upper_ascii in H1. unfold is_ascii. destruct (is_lower c) eqn:L.
      - unfold is_lower in L. apply N.ltb_lt. rewrite Bool.andb_true_iff, !N.leb_le in L. lia.
      - unfold is_upper in H1. apply N.ltb_lt. rewrite Bool.andb_true_iff, !N.leb_le in H1. lia. }
    cbn. repeat (apply Forall_cons1; [reflexivity|]). apply Forall_app. split; [exact X|]. now repeat constructor.
Qed.

(** ** Numeric character references *)
Lemma scalar_u32 : forall v, is_scalar v = true -> (v <=? u32_max)%N = true.
Proof.
  intros v H. unfold is_scalar in H. apply N.leb_le. unfold u32_max.
  apply Bool.orb_true_iff in H as [H|H]; [apply N.ltb_lt in H|apply Bool.andb_true_iff in H as [_ H]; apply N.leb_le in H]; lia.
Qed.
Lemma digit_not_x : forall d s, is_digit d = true -> one_of (lit "xX") (d :: s) = Err.
Proof.
  intros d s H. unfold one_of, satisfy. cbn. destruct (N.eqb_spec d 120); [subst; discriminate|].
  destruct (N.eqb_spec d 88); [subst; discriminate|]. reflexivity.
Qed.
Definition numeric_result (v : N) (t : str) : res str := if is_scalar v then Ok t [v] else Err.
Theorem entity_decimal : forall ds t, ds <> [] -> Forall (fun c => is_digit c = true) ds ->
  p_entity_numeric (lit "&#" ++ ds ++ lit ";" ++ t) = numeric_result (dec_value ds) t.
Proof.
  intros ds t Hne Hd. unfold p_entity_numeric, pmap, map_opt, delimited, preceded, terminated, value, pmap.
  unfold bind at 1. unfold bind at 1. unfold bind at 1. rewrite tag_app. unfold bind at 1. cbn [alt]. unfold or_else.
  unfold bind at 1. unfold digit1. rewrite take1_app by (try assumption; reflexivity).
  unfold as_u32, numeric_result. destruct (is_scalar (dec_value ds)) eqn:S.
  - rewrite (scalar_u32 _ S). unfold ret, bind. change (lit ";" ++ t) with (ch ";" :: t); unfold chr; rewrite (char_cons (ch ";")). rewrite S. reflexivity.
  - destruct (_ <=? _)%N.
    + unfold ret, bind. change (lit ";" ++ t) with (ch ";" :: t); unfold chr; rewrite (char_cons (ch ";")). now rewrite S.
    + unfold fail. unfold bind at 1. destruct ds as [|d ds]; [now elim Hne|]. inversion Hd as [|? ? Hdd _]; subst.
      cbn [app]. unfold bind at 1. now rewrite (digit_not_x d _ Hdd).
Qed.
Theorem entity_hex : forall x ds t, x = ch "x" \/ x = ch "X" -> ds <> [] -> Forall (fun c => is_hex c = true) ds ->
  p_entity_numeric (lit "&#" ++ x :: ds ++ lit ";" ++ t) = numeric_result (hex_value ds) t.
Proof.
  intros x ds t Hx Hne Hd. unfold p_entity_numeric, pmap, map_opt, delimited, preceded, terminated, value, pmap.
  unfold bind at 1. unfold bind at 1. unfold bind at 1. rewrite tag_app. unfold bind at 1. cbn [alt]. unfold or_else.
  unfold bind at 1.
  assert (D : digit1 (x :: ds ++ lit ";" ++ t) = Err) by (destruct Hx as [-> | ->]; reflexivity). rewrite D.
  unfold bind at 1. unfold bind at 1.
  assert (O : one_of (lit "xX") (x :: ds ++ lit ";" ++ t) = Ok (ds ++ lit ";" ++ t) x) by (destruct Hx as [-> | ->]; reflexivity).
  rewrite O. unfold hex_digit1. rewrite take1_app by (try assumption; reflexivity).
  unfold as_u32, numeric_result. destruct (is_scalar (hex_value ds)) eqn:S.
  - rewrite (scalar_u32 _ S). unfold ret, bind. change (lit ";" ++ t) with (ch ";" :: t); unfold chr; rewrite (char_cons (ch ";")). rewrite S. reflexivity.
  - destruct (_ <=? _)%N; [|reflexivity].
    unfold ret, bind. change (lit ";" ++ t) with (ch ";" :: t); unfold chr; rewrite (char_cons (ch ";")). now rewrite S.
Qed.
Theorem entity_only : forall s r a, p_entity_numeric s = Ok r a -> exists v, a = [v] /\ is_scalar v = true /\
  ((exists ds, s = lit "&#" ++ ds ++ lit ";" ++ r /\ ds <> [] /\ Forall (fun c => is_digit c = true) ds /\ v = dec_value ds) \/
   (exists x ds, s = lit "&#" ++ x :: ds ++ lit ";" ++ r /\ (x = ch "x" \/ x = ch "X") /\ ds <> []
      /\ Forall (fun c => is_hex c = true) ds /\ v = hex_value ds)).
Proof.
  intros s r a E. unfold p_entity_numeric, pmap, map_opt, delimited, preceded, terminated, value, pmap in E.
  unfold bind at 1 in E. unfold bind at 1 in E. unfold bind at 1 in E.
  destruct (tag (lit "&#") s) as [s1 x1| |] eqn:E1; try discriminate. apply tag_iff in E1 as [-> _]. unfold bind at 1 in E.
  match type of E with (match match match ?p s1 with _ => _ end with _ => _ end with _ => _ end) = _ =>
    destruct (p s1) as [s2 v| |] eqn:E2 end; try discriminate.
  unfold bind at 1, ret in E. unfold chr in E. destruct (char_ (ch ";") s2) as [s3 y| |] eqn:E3; try discriminate.
  apply char_inv in E3 as ->. destruct (is_scalar v) eqn:S; [|discriminate]. injection E as <- <-.
  exists v. split; [reflexivity|]. split; [exact S|]. cbn [alt] in E2. unfold or_else in E2. unfold bind at 1 in E2.
  destruct (digit1 s1) as [s2' ds| |] eqn:E3.
  - apply take1_inv in E3 as (-> & Hne & Hd & _). unfold as_u32 in E2. destruct (_ <=? _)%N.
    + injection E2 as -> <-. left. exists ds. now repeat split.
    + unfold fail in E2. unfold bind at 1 in E2. unfold bind at 1 in E2. exfalso. destruct ds as [|d ds]; [now elim Hne|]. inversion Hd as [|? ? Hdd _]; subst.
      cbn [app] in E2. now rewrite (digit_not_x d _ Hdd) in E2.
  - unfold bind at 1 in E2. unfold bind at 1 in E2. destruct (one_of (lit "xX") s1) as [s2' x| |] eqn:E4; try discriminate.
    unfold one_of, satisfy in E4. destruct s1 as [|x' s1]; [discriminate|].
    destruct (existsb _ _) eqn:Ex; [|discriminate]. injection E4 as <- <-.
    destruct (hex_digit1 s1) as [s2' ds| |] eqn:E5; try discriminate. apply take1_inv in E5 as (-> & Hne & Hd & _).
    unfold as_u32 in E2. destruct (_ <=? _)%N; [|discriminate]. injection E2 as -> <-. right. exists x', ds.
    repeat split; try assumption. cbn in Ex. rewrite Bool.orb_false_r in Ex. apply Bool.orb_true_iff in Ex as [Ex|Ex]; apply N.eqb_eq in Ex; [now left|now right].
  - discriminate.
Qed.
