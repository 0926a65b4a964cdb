(** The reader accepts a JSON value exactly when it encodes a document. *)
From Coq Require Import String Lia Arith.
From Verif Require Import SpecEncode HtmlFacts.
Import ListNotations.
Open Scope list_scope.

Fixpoint jsize (j : json) : nat :=
  match j with
  | JArr l => S (list_sum (map jsize l))
  | JObj fs => S (list_sum (map (fun kv => jsize (snd kv)) fs))
  | _ => 1
  end.
Lemma sum_in : forall A (f : A -> nat) l x, In x l -> f x <= list_sum (map f l).
Proof. intros A f l x I. induction l as [|y l IH]; [destruct I|]. cbn [map list_sum fold_right]. fold (list_sum (map f l)). destruct I as [->|I]; [lia|]. specialize (IH I). lia. Qed.
Lemma arr_child : forall l x, In x l -> jsize x < jsize (JArr l).
Proof. intros l x I. cbn [jsize]. pose proof (sum_in _ jsize l x I). lia. Qed.
Lemma obj_child : forall fs k x, In (k, x) fs -> jsize x < jsize (JObj fs).
Proof. intros fs k x I. cbn [jsize]. pose proof (sum_in _ (fun kv => jsize (snd kv)) fs (k, x) I) as H. cbn [snd] in H. lia. Qed.

(** ** Fields *)
Definition once (name : str) (x : json) (o : list (str * json)) : Prop :=
  exists before after, o = before ++ (name, x) :: after /\ ~ In name (keys (before ++ after)).
Lemma find_absent : forall A (f : json -> option A) k o, find_field f k o = Absent <-> ~ In k (keys o).
Proof.
  intros A f k o. induction o as [|[k' v] o IH]; cbn [find_field keys map fst In]; [split; [intros _ []|reflexivity]|].
  fold (find_field f k). destruct (str_eqb k' k) eqn:E.
  - apply str_eqb_eq in E. subst. split; [destruct (find_field f k o); discriminate|]. intro N. elim N. now left.
  - rewrite IH. unfold keys. split; intros N I; apply N; [|now right]. destruct I as [I|I]; [|exact I]. apply (proj2 (str_eqb_eq k' k)) in I. congruence.
Qed.
Lemma find_once_iff : forall A (f : json -> option A) k o r, find_field f k o = Once r <-> exists x, once k x o /\ r = f x.
Proof.
  intros A f k o r. split.
  - induction o as [|[k' v] o IH]; cbn [find_field]; [discriminate|]. fold (find_field f k). destruct (str_eqb k' k) eqn:E.
    + apply str_eqb_eq in E. subst. destruct (find_field f k o) eqn:F; try discriminate. intro H. injection H as <-. apply find_absent in F.
      exists v. split; [|reflexivity]. exists [], o. auto.
    + intro H. destruct (IH H) as (x & (b & a & -> & N) & ->). exists x. split; [|reflexivity]. exists ((k', v) :: b), a. split; [reflexivity|].
      cbn. intros [I|I]; [|exact (N I)]. apply (proj2 (str_eqb_eq k' k)) in I. congruence.
  - intros (x & (b & a & -> & N) & ->). unfold keys in N. rewrite map_app in N. induction b as [|[k' v] b IH]; cbn [app find_field].
    + fold (find_field f k). rewrite (proj2 (str_eqb_eq k k) eq_refl). cbn in N. now rewrite (proj2 (find_absent A f k a) N).
    + fold (find_field f k). cbn in N. destruct (str_eqb k' k) eqn:E; [apply str_eqb_eq in E; subst; tauto|]. apply IH. tauto.
Qed.
Lemma elem_nth : forall A (m : option A) f i l, elem m f i l = match nth_error l i with Some x => f x | None => m end.
Proof. intros A m f i l. revert i. induction l as [|x l IH]; intros [|i]; cbn; try reflexivity. apply IH. Qed.

Definition holds (v : value) (name : string) (i : nat) (j : json) : Prop :=
  match j with
  | JObj o => (exists x, once (lit name) x o /\ encodes v x) \/ (~ In (lit name) (keys o) /\ may_miss v)
  | JArr l => match nth_error l i with Some x => encodes v x | None => may_drop v end
  | _ => False
  end.
Lemma field_iff : forall A (m m' : option A) f name i j a v,
  (forall x, jsize x < jsize j -> (f x = Some a <-> encodes v x)) -> (m = Some a <-> may_miss v) -> (m' = Some a <-> may_drop v) ->
  (field m m' f name i j = Some a <-> holds v name i j).
Proof.
  intros A m m' f name i j a v F M M'. unfold field, holds. destruct j as [| | | |l|o]; try (split; [discriminate|intros []]).
  - rewrite elem_nth. destruct (nth_error l i) as [x|] eqn:E; [|exact M']. apply F. apply arr_child. eapply nth_error_In, E.
  - destruct (find_field f (lit name) o) eqn:E.
    + pose proof (proj1 (find_absent _ _ _ _) E) as N. split; [intro H; right; split; [exact N|now apply M]|]. intros [(x & (b & a' & -> & _) & _)|(_ & H)]; [|now apply M].
      elim N. unfold keys. rewrite map_app. apply in_or_app. right. now left.
    + pose proof (proj1 (find_once_iff _ _ _ _ _) E) as (x & X & ->). assert (C : jsize x < jsize (JObj o)).
      { destruct X as (b & a' & -> & _). apply (obj_child _ (lit name)). apply in_or_app. right. now left. }
      split; [intro H; left; exists x; split; [exact X|now apply F]|]. intros [(y & Y & H)|(N & _)].
      * apply F; [exact C|]. assert (Q : find_field (fun j => Some j) (lit name) o = Once (Some x)) by (apply find_once_iff; eauto).
        assert (Q' : find_field (fun j => Some j) (lit name) o = Once (Some y)) by (apply find_once_iff; eauto). rewrite Q in Q'. injection Q' as ->. exact H.
      * apply (find_absent _ f) in N. congruence.
    + split; [discriminate|]. intros [(y & Y & H)|(N & _)]; [|apply (find_absent _ f) in N; congruence].
      assert (Q : find_field f (lit name) o = Once (f y)) by (apply find_once_iff; eauto). congruence.
Qed.
Fixpoint held (i : nat) (fs : list (string * value)) (j : json) : Prop :=
  match fs with [] => True | (name, v) :: fs' => holds v name i j /\ held (S i) fs' j end.
Lemma held_obj : forall fs i o, held i fs (JObj o) <-> forall name v, In (name, v) fs -> holds v name 0 (JObj o).
Proof.
  induction fs as [|[n v] fs IH]; intros i o; cbn [held]; [split; [intros _ ? ? []|auto]|]. rewrite IH. split.
  - intros (H & R) name w [I|I]; [injection I as <- <-; exact H|now apply R].
  - intro H. split; [apply H; now left|]. intros. apply H. now right.
Qed.
Lemma held_arr : forall fs l0 l, held (length l0) fs (JArr (l0 ++ l)) <->
  exists given rest l1, fs = given ++ rest /\ (exists l2, l = l1 ++ l2 /\ (rest = [] \/ l2 = [])) /\ Forall2 (fun f j => encodes (snd f) j) given l1 /\ Forall (fun f => may_drop (snd f)) rest.
Proof.
  induction fs as [|[n v] fs IH]; intros l0 l; cbn [held].
  - split; [|auto]. intros _. exists [], [], []. repeat split; auto. exists l. auto.
  - cbn [holds]. rewrite nth_error_app2, Nat.sub_diag by lia. destruct l as [|x l].
    + specialize (IH (l0 ++ [JNull]) []). rewrite app_length, app_nil_r in IH. cbn [length] in IH. rewrite Nat.add_1_r in IH.
      rewrite app_nil_r. cbn [nth_error].
      assert (Q : held (S (length l0)) fs (JArr l0) <-> Forall (fun f => may_drop (snd f)) fs).
      { clear IH. assert (G : forall i, length l0 <= i -> (held i fs (JArr l0) <-> Forall (fun f => may_drop (snd f)) fs)); [|apply G; lia].
        induction fs as [|[n' v'] fs IH]; intros i L; cbn [held]; [split; auto|]. cbn [holds]. rewrite (proj2 (nth_error_None l0 i) L).
        rewrite (IH (S i)) by lia. split; [intros (H & R); apply Forall_cons; assumption|]. intro H. inversion H; subst. auto. }
      rewrite Q. split.
      * intros (H & R). exists [], ((n, v) :: fs), []. repeat split; auto. exists []. auto.
      * intros (g & r & l1 & E & (l2 & E' & _) & F & D). symmetry in E'. apply app_eq_nil in E' as (-> & ->). inversion F; subst. cbn in E. subst r. inversion D; subst. auto.
    + specialize (IH (l0 ++ [x]) l). rewrite app_length, <- app_assoc in IH. cbn [length app] in IH. rewrite Nat.add_1_r in IH. rewrite IH. cbn [nth_error]. split.
      * intros (H & g & r & l1 & -> & (l2 & -> & O) & F & D). exists ((n, v) :: g), r, (x :: l1). repeat split; auto. exists l2. auto.
      * intros (g & r & l1 & E & (l2 & E' & O) & F & D). destruct g as [|[n' v'] g].
        { inversion F; subst. cbn in E, E'. subst. destruct O; discriminate. }
        inversion F as [|? y ? l1' Hy F']; subst. cbn in E, E'. injection E as <- <- ->. injection E' as <- ->. split; [exact Hy|]. exists g, r, l1'. repeat split; auto. exists l2. auto.
Qed.
Lemma rec_iff : forall fs j, encodes (VRec fs) j <-> sized (length fs) j = true /\ held 0 fs j.
Proof.
  intros fs j. destruct j as [| | | |l|o]; try (split; [intro H; inversion H|intros (H & _); discriminate H]).
  - pose proof (held_arr fs [] l) as Q. cbn [length app] in Q. rewrite Q. cbn [sized]. rewrite Nat.leb_le. split.
    + intro H. inversion H as [| | | | | | | | |g r js F D|]; subst. split.
      * rewrite app_length. assert (length g = length l) by (clear -F; induction F; cbn; congruence). lia.
      * exists g, r, l. repeat split; auto. exists []. split; [now rewrite app_nil_r|now right].
    + intros (L & g & r & l1 & -> & (l2 & -> & O) & F & D). assert (length g = length l1) by (clear -F; induction F; cbn; congruence).
      assert (l2 = []) as ->. { destruct O as [->|O]; [|exact O]. rewrite !app_length in L. cbn in L. destruct l2; [reflexivity|]. cbn in L. lia. }
      rewrite app_nil_r. now apply e_row.
  - rewrite held_obj. split.
    + intro H. split; [reflexivity|]. inversion H as [| | | | | | | |? ? K| |]; subst. intros name v I. destruct (K name v I) as [(b & x & a & -> & N & E)|R]; [|now right].
      left. exists x. split; [|exact E]. exists b, a. auto.
    + intros (_ & K). apply e_object. intros name v I. destruct (K name v I) as [(x & (b & a & -> & N) & E)|R]; [|now right].
      left. exists b, x, a. auto.
Qed.

(** ** Combinators *)
Definition decodes {A} (dec : json -> option A) (V : A -> value) (j : json) : Prop := forall a, dec j = Some a <-> encodes (V a) j.
Lemma d_str : forall j, decodes r_str VStr j.
Proof. intros [] a; cbn; split; intro H; try discriminate H; try (now inversion H); injection H as ->; constructor. Qed.
Lemma d_num : forall m b, (forall n, (n <=? m)%N = true <-> (n < 2 ^ b)%N) -> forall j, decodes (r_num m) (VNum b) j.
Proof.
  intros m b E [] a; cbn; split; intro H; try discriminate H; try (now inversion H).
  - destruct (n <=? m)%N eqn:L; [|discriminate]. injection H as ->. constructor. now apply E.
  - inversion H; subst. rewrite (proj2 (E n)); [reflexivity|assumption].
Qed.
Lemma d_u8 : forall j, decodes (r_num 255) (VNum 8) j.
Proof. apply d_num. intro n. rewrite N.leb_le. change (2 ^ 8)%N with 256%N. lia. Qed.
Lemma d_u64 : forall j, decodes (r_num u64_max) (VNum 64) j.
Proof. apply d_num. intro n. rewrite N.leb_le. unfold u64_max. change (2 ^ 64)%N with 18446744073709551616%N. lia. Qed.
Lemma d_opt : forall A (dec : json -> option A) V j, decodes dec V j -> (forall a, ~ encodes (V a) JNull) -> decodes (r_opt dec) (fun o => VOpt (option_map V o)) j.
Proof.
  intros A dec V j D N a. assert (Q : j <> JNull -> r_opt dec j = option_map Some (dec j)) by (destruct j; intro; solve [congruence | reflexivity]). destruct a as [a|]; cbn [option_map].
  - split; intro H.
    + apply e_some. apply D. destruct j; try (now cbn in H); rewrite Q in H by discriminate; destruct (dec _); try discriminate; now injection H as ->.
    + inversion H as [| | | |? ? E| | | | | |]; subst. rewrite Q; [|intros ->; exact (N a E)]. rewrite (proj2 (D a) E). reflexivity.
  - split; intro H.
    + destruct j; try (cbn in H; discriminate H); try constructor; rewrite Q in H by discriminate; destruct (dec _); discriminate.
    + inversion H; subst. reflexivity.
Qed.
Lemma d_ostr : forall j, decodes (r_opt r_str) v_opt j.
Proof. intro j. apply d_opt; [apply d_str|]. intros a H. inversion H. Qed.
Lemma d_all : forall A (dec : json -> option A) V l, (forall x, In x l -> decodes dec V x) -> forall r, r_all dec l = Some r <-> Forall2 encodes (map V r) l.
Proof.
  intros A dec V l. induction l as [|x l IH]; intros D r; cbn [r_all].
  - split; intro H; [injection H as <-; constructor|]. inversion H as [E|]; destruct r; [reflexivity|discriminate].
  - fold (r_all dec). assert (IH' := IH (fun y I => D y (or_intror I))). pose proof (D x (or_introl eq_refl)) as Dx. clear D IH. split; intro H.
    + destruct (dec x) as [a|] eqn:E; [|discriminate]. destruct (r_all dec l) as [r'|] eqn:F; [|discriminate]. injection H as <-. cbn. constructor; [now apply Dx|]. apply IH'. reflexivity.
    + inversion H as [|v y vs l' Ev F E]; subst. destruct r as [|a r]; [discriminate|]. cbn in E. injection E as Ea Er. subst v vs. rewrite (proj2 (Dx a) Ev). apply IH' in F. now rewrite F.
Qed.
Lemma d_vec : forall A (dec : json -> option A) V j, (forall x, jsize x < jsize j -> decodes dec V x) -> decodes (r_vec dec) (fun l => VSeq (map V l)) j.
Proof.
  intros A dec V j D r. destruct j as [| | | |l|]; cbn [r_vec]; try (split; intro H; [discriminate H|inversion H]).
  rewrite (d_all _ dec V) by (intros x I; apply D; now apply arr_child). split; intro H; [now constructor|now inversion H].
Qed.
Lemma d_in : forall A (dec : json -> option A) V j, (forall x, decodes dec V x) -> decodes (r_vec dec) (fun l => VSeq (map V l)) j.
Proof. intros. apply d_vec. auto. Qed.

(** ** Choices *)
Lemma unit_iff : forall n j, encodes (VUnit n) j <-> unit_tag j = Some (lit n).
Proof.
  intros n j. split; [intro H; inversion H; subst; reflexivity|]. destruct j as [| | |s| |o]; cbn; try discriminate.
  - intro H. injection H as ->. constructor.
  - destruct o as [|[s v] o]; [discriminate|]. destruct v; try discriminate. destruct o; try discriminate. intro H. injection H as ->. constructor.
Qed.
Lemma case_iff : forall n v j, encodes (VCase n v) j <-> exists x, j = JObj [(lit n, x)] /\ encodes v x.
Proof.
  intros n v j. split; [intro H; inversion H; subst; eauto|]. intros (x & -> & H). now constructor.
Qed.
Lemma tag_true : forall s t, is_tag s t = true -> s = lit t.
Proof. intros s t H. now apply str_eqb_eq. Qed.
Ltac ctags := repeat match goal with
  | |- context [is_tag (lit ?a) ?b] => let r := eval vm_compute in (is_tag (lit a) b) in change (is_tag (lit a) b) with r
  | H : context [is_tag (lit ?a) ?b] |- _ => let r := eval vm_compute in (is_tag (lit a) b) in change (is_tag (lit a) b) with r in H end; cbv iota in *.
Ltac break H := repeat match type of H with
  | context [if is_tag ?s ?t then _ else _] => let E := fresh "T" in destruct (is_tag s t) eqn:E; [apply tag_true in E; subst s; try (discriminate H)|try (discriminate H)]
  | context [match ?x with _ => _ end] => destruct x eqn:?; try discriminate H
  end.
Ltac units := let j := fresh "j" in let a := fresh "a" in let H := fresh "H" in
  intros j a; rewrite unit_iff; split; intro H;
  [destruct (unit_tag j) as [s|]; [|discriminate H]; break H; injection H as <-; reflexivity
  |rewrite H; destruct a; ctags; reflexivity].
Lemma d_setext : forall j, decodes r_setext v_setext j.
Proof. unfold r_setext, v_setext. units. Qed.
Lemma d_bullet : forall j, decodes r_bullet v_bullet j.
Proof. unfold r_bullet, v_bullet. units. Qed.
Lemma d_task : forall j, decodes r_task v_task j.
Proof. unfold r_task, v_task. units. Qed.
Lemma d_alignment : forall j, decodes r_alignment v_alignment j.
Proof. unfold r_alignment, v_alignment. units. Qed.
Lemma d_otask : forall j, decodes (r_opt r_task) (fun t => VOpt (option_map v_task t)) j.
Proof. intro j. apply d_opt; [apply d_task|]. intros a H. destruct a; inversion H. Qed.
Lemma d_heading_kind : forall j, decodes r_heading_kind v_heading_kind j.
Proof.
  intros j a. split; intro H.
  - unfold r_heading_kind in H. destruct j as [| | | | |[|[s v] [|? ?]]]; try discriminate. break H; injection H as <-; cbn [v_heading_kind]; apply e_case; [now apply d_u8|now apply d_setext].
  - destruct a; cbn [v_heading_kind] in H; apply case_iff in H as (x & -> & H); unfold r_heading_kind; ctags; [apply d_u8 in H|apply d_setext in H]; now rewrite H.
Qed.

(** ** Records: [fields] turns "the record is encoded" into one fact for each field *)
Lemma none_some : forall A (a : A) (P : Prop), ~ P -> (None = Some a <-> P).
Proof. intros. split; [discriminate|tauto]. Qed.
Lemma need_iff : forall A (f : json -> option A) V name i j a, (forall x, jsize x < jsize j -> decodes f V x) -> ~ may_miss (V a) -> ~ may_drop (V a) ->
  (need f name i j = Some a <-> holds (V a) name i j).
Proof. intros A f V name i j a F M M'. apply field_iff; [intros x L; now apply F|now apply none_some|now apply none_some]. Qed.
Lemma maybe_iff : forall A (f : json -> option A) V name i j a, (forall x, jsize x < jsize j -> decodes (r_opt f) (fun o => VOpt (option_map V o)) x) ->
  (maybe f name i j = Some a <-> holds (VOpt (option_map V a)) name i j).
Proof.
  intros A f V name i j a F. apply field_iff; [intros x L; now apply F| |].
  - destruct a; cbn; split; try discriminate; try tauto.
  - destruct a; cbn; now apply none_some.
Qed.
Lemma d_list_kind : forall j, decodes r_list_kind v_list_kind j.
Proof.
  intros j a. unfold r_list_kind. split; intro H.
  - destruct j as [| | | | |[|[s v] [|? ?]]]; try discriminate. break H; injection H as <-; cbn [v_list_kind]; apply e_case; [|now apply d_bullet].
    apply rec_iff. split; [assumption|]. split; [|exact I]. eapply (need_iff _ _ (VNum 64)); [intros; apply d_u64|cbn; tauto|cbn; tauto|eassumption].
  - destruct a; cbn [v_list_kind] in H; apply case_iff in H as (x & -> & H); ctags; [|apply d_bullet in H; now rewrite H].
    apply rec_iff in H as (S1 & H & _). cbn [length] in S1. rewrite S1. apply (need_iff _ (r_num u64_max)) in H; [|intros; apply d_u64|cbn; tauto|cbn; tauto]. now rewrite H.
Qed.
Lemma d_code_kind : forall j, decodes r_code_kind v_code_kind j.
Proof.
  intros j a. unfold r_code_kind. split; intro H.
  - destruct (unit_tag j) as [s|] eqn:U.
    + break H. injection H as <-. now apply unit_iff.
    + destruct j as [| | | | |[|[s v] [|? ?]]]; try discriminate. break H. injection H as <-. apply e_case. apply rec_iff. split; [assumption|]. split; [|exact I].
      eapply (maybe_iff _ r_str VStr); [intros; apply d_ostr|eassumption].
  - destruct a as [|i]; cbn [v_code_kind] in H; [apply unit_iff in H; rewrite H; ctags; reflexivity|].
    apply case_iff in H as (x & -> & H). apply rec_iff in H as (S1 & H & _). apply (maybe_iff _ r_str VStr) in H; [|intros; apply d_ostr]. cbn [length] in S1.
    assert (U : unit_tag (JObj [(lit "Fenced", x)]) = None) by (cbn; destruct x; try reflexivity; discriminate S1). rewrite U. ctags. now rewrite S1, H.
Qed.
Lemma d_alert_type : forall j, decodes r_alert_type v_alert_type j.
Proof.
  intros j a. unfold r_alert_type. split; intro H.
  - destruct (unit_tag j) as [s|] eqn:U.
    + break H; injection H as <-; cbn [v_alert_type]; now apply unit_iff.
    + destruct j as [| | | | |[|[s v] [|? ?]]]; try discriminate. break H. injection H as <-. apply e_case. now apply d_str.
  - destruct a as [| | | | |n]; cbn [v_alert_type] in H; try (apply unit_iff in H; rewrite H; ctags; reflexivity).
    apply case_iff in H as (x & -> & H). apply d_str in H.
    assert (U : unit_tag (JObj [(lit "Custom", x)]) = None) by (cbn; destruct x; try reflexivity; discriminate H). rewrite U. ctags. now rewrite H.
Qed.

(** one field; [more]: further readers *)
Ltac nomiss := let X := fresh in intro X; unfold may_miss, may_drop, v_heading_kind, v_list_kind, v_glist_kind, v_code_kind, v_alert_type in X; cbn in X; repeat match type of X with context [match ?k with _ => _ end] => is_var k; destruct k; cbn in X end; exact X.
Ltac one more := first
  [ more
  | apply (need_iff _ r_str VStr); [intros; apply d_str|nomiss|nomiss]
  | apply (maybe_iff _ r_str VStr); intros; apply d_ostr
  | apply (maybe_iff _ r_task v_task); intros; apply d_otask
  | apply (need_iff _ r_heading_kind v_heading_kind); [intros; apply d_heading_kind|nomiss|nomiss]
  | apply (need_iff _ r_list_kind v_list_kind); [intros; apply d_list_kind|nomiss|nomiss]
  | apply (need_iff _ r_code_kind v_code_kind); [intros; apply d_code_kind|nomiss|nomiss]
  | apply (need_iff _ r_alert_type v_alert_type); [intros; apply d_alert_type|nomiss|nomiss] ].
(** towards [encodes (VRec _) _], the fields read being known *)
Ltac rec_to more := apply rec_iff; split; [assumption|]; cbn [held]; repeat match goal with |- _ /\ _ => split end; try exact I;
  match goal with |- holds ?v ?n ?i ?j =>
    let Q := fresh in eassert (Q : _ = Some _ <-> holds v n i j) by one more; apply Q; eassumption end.
(** from it: rewrite with what is read *)
Ltac rec_from H more :=
  let S1 := fresh "S" in let R := fresh "R" in
  apply rec_iff in H as (S1 & R); cbn [length] in S1; rewrite S1; cbn [held] in R;
  repeat match type of R with
  | holds ?v ?n ?i ?j /\ _ =>
      let K := fresh "K" in let R' := fresh "R" in let Q := fresh in
      destruct R as (K & R'); rename R' into R;
      eassert (Q : _ = Some _ <-> holds v n i j) by one more; apply Q in K; clear Q; cbv beta in K; first [rewrite K | unfold r_vec in K; cbv beta in K; rewrite K]; clear K
  end.
Ltac none := fail.
Lemma d_image : forall j, decodes r_image (fun im => match im with Image d t a => VRec [("destination"%string, VStr d); ("title"%string, v_opt t); ("alt"%string, VStr a)] end) j.
Proof.
  intros j a. unfold r_image. split; intro H.
  - break H. injection H as <-. rec_to none.
  - destruct a as [d t a]. rec_from H none. reflexivity.
Qed.
Lemma sized_vec : forall A (dec : json -> option A) V n j, (forall x, jsize x < n -> decodes dec V x) -> jsize j <= n -> decodes (r_vec dec) (fun l => VSeq (map V l)) j.
Proof. intros A dec V n j D L. apply d_vec. intros x Lx. apply D. lia. Qed.
Lemma d_arr : forall A (dec : json -> option A) V n l r, (forall x, jsize x < n -> decodes dec V x) -> jsize (JArr l) <= n -> (r_all dec l = Some r <-> encodes (VSeq (map V r)) (JArr l)).
Proof. intros A dec V n l r D L. exact (sized_vec A dec V n (JArr l) D L r). Qed.
Lemma d_inline_n : forall n j, jsize j <= n -> decodes r_inline v_inline j.
Proof.
  induction n as [|n IH]; [intros [] L; cbn in L; lia|]. intros j Lj.
  assert (V : forall x, jsize x < jsize j -> decodes (r_vec r_inline) (fun l => VSeq (map v_inline l)) x).
  { intros x L. apply d_vec. intros y Ly. apply IH. lia. }
  destruct j as [| | |s| |[|[s v] [|? ?]]]; try (intro a; split; intro H; [discriminate H|destruct a as [| | | |[]|[]|[]| | | | | |]; cbn [v_inline] in H; inversion H]).
  - intro a. split; intro H.
    + cbn [r_inline] in H. break H; injection H as <-; constructor.
    + destruct a as [| | | |[]|[]|[]| | | | | |]; cbn [v_inline] in H; inversion H; subst; reflexivity.
  - assert (Lv : jsize v < jsize (JObj [(s, v)])) by (cbn; lia). assert (Vv := V v Lv).
    assert (V2 : forall x, jsize x < jsize v -> decodes (r_vec r_inline) (fun l => VSeq (map v_inline l)) x) by (intros; apply V; lia). clear V.
    intro a. split; intro H.
    + cbn [r_inline] in H. break H; injection H as <-;
        try match goal with E : r_image v = Some ?im |- _ => apply d_image in E; destruct im end; cbn [v_inline]; first [apply e_unit_null | apply e_case];
        first [ assumption | now apply d_str | apply (Vv _); assumption
              | rec_to ltac:(apply (need_iff _ (r_vec r_inline) (fun l => VSeq (map v_inline l))); [exact V2|nomiss|nomiss]) ].
    + destruct a as [t| |t|t|[d t c]|[l t]|im|c|c|c|t|t|]; cbn [v_inline] in H;
        try (inversion H; subst; reflexivity);
        try match type of H with encodes (match im with _ => _ end) _ => assert (Q := proj2 (d_image v im)); destruct im end;
        apply case_iff in H; destruct H as (x & E & H); injection E as -> <-; cbn [r_inline]; ctags;
        first [ apply d_str in H; now rewrite H
              | apply (Vv _) in H; unfold r_vec in H; destruct v; try discriminate H; now rewrite H
              | rewrite (Q H); reflexivity
              | rec_from H ltac:(apply (need_iff _ (r_vec r_inline) (fun l => VSeq (map v_inline l))); [exact V2|nomiss|nomiss]); reflexivity ].
Qed.
Lemma d_inline : forall j, decodes r_inline v_inline j.
Proof. intro j. now apply (d_inline_n (jsize j)). Qed.
Lemma d_inlines : forall j, decodes r_inlines v_inlines j.
Proof. intro j. apply d_in. apply d_inline. Qed.
Lemma d_rows : forall A (dec : json -> option A) V, (forall j, decodes dec V j) -> forall j, decodes (r_vec (r_vec (r_vec dec))) (v_rows V) j.
Proof. intros A dec V D j. unfold v_rows. apply (d_in _ (r_vec (r_vec dec)) (fun row => VSeq (map (fun c => VSeq (map V c)) row))). intro x. apply (d_in _ (r_vec dec) (fun c => VSeq (map V c))). intro y. now apply d_in. Qed.
Lemma d_alignments : forall j, decodes (r_vec r_alignment) (fun l => VSeq (map v_alignment l)) j.
Proof. intro j. apply d_in. apply d_alignment. Qed.
Ltac readers := first
  [ apply (need_iff _ r_inlines v_inlines); [intros; apply d_inlines|nomiss|nomiss]
  | apply (need_iff _ (r_vec (r_vec r_inlines)) (v_rows v_inline)); [intros; apply (d_rows _ r_inline); apply d_inline|nomiss|nomiss]
  | apply (need_iff _ (r_vec r_alignment) (fun l => VSeq (map v_alignment l))); [intros; apply d_alignments|nomiss|nomiss] ].
Lemma d_heading : forall j, decodes r_heading (fun h => match h with Heading k c => VRec [("kind"%string, v_heading_kind k); ("content"%string, v_inlines c)] end) j.
Proof.
  intros j a. unfold r_heading. split; intro H.
  - break H. injection H as <-. rec_to readers.
  - destruct a as [k c]. rec_from H readers. reflexivity.
Qed.
Lemma d_code_block : forall j, decodes r_code_block (fun h => match h with CodeBlock k l => VRec [("kind"%string, v_code_kind k); ("literal"%string, VStr l)] end) j.
Proof.
  intros j a. unfold r_code_block. split; intro H.
  - break H. injection H as <-. rec_to readers.
  - destruct a as [k c]. rec_from H readers. reflexivity.
Qed.
Lemma d_link_definition : forall j, decodes r_link_definition (fun h => match h with LinkDefinition l d t => VRec [("label"%string, v_inlines l); ("destination"%string, VStr d); ("title"%string, v_opt t)] end) j.
Proof.
  intros j a. unfold r_link_definition. split; intro H.
  - break H. injection H as <-. rec_to readers.
  - destruct a as [l d t]. rec_from H readers. reflexivity.
Qed.
Lemma d_table : forall j, decodes r_table (fun h => match h with Table r a => VRec [("rows"%string, v_rows v_inline r); ("alignments"%string, VSeq (map v_alignment a))] end) j.
Proof.
  intros j a. unfold r_table. split; intro H.
  - break H. injection H as <-. rec_to readers.
  - destruct a as [r a]. rec_from H readers. reflexivity.
Qed.
Definition v_item (it : list_item) : value :=
  match it with ListItem t bs => VRec [("task"%string, VOpt (option_map v_task t)); ("blocks"%string, VSeq (map v_block bs))] end.
Definition r_item (y : json) : option list_item :=
  if sized 2 y then
    t <? maybe r_task "task" 0 y ;;
    bs <? need (fun z => match z with JArr l => r_all r_block l | _ => None end) "blocks" 1 y ;;
    Some (ListItem t bs)
  else None.
Ltac blocks V := apply (need_iff _ (r_vec r_block) (fun l => VSeq (map v_block l))); [exact V|nomiss|nomiss].
Lemma d_block_n : forall n j, jsize j <= n -> decodes r_block v_block j.
Proof.
  induction n as [|n IH]; [intros [] L; cbn in L; lia|]. intros j Lj.
  assert (V : forall x, jsize x < jsize j -> decodes (r_vec r_block) (fun l => VSeq (map v_block l)) x).
  { intros x L. apply d_vec. intros y Ly. apply IH. lia. }
  assert (It : forall x, jsize x < jsize j -> decodes r_item v_item x).
  { intros x L a. unfold r_item. assert (V' : forall y, jsize y < jsize x -> decodes (r_vec r_block) (fun l => VSeq (map v_block l)) y) by (intros; apply V; lia). split; intro H.
    - break H. injection H as <-. cbn [v_item]. rec_to ltac:(blocks V').
    - destruct a as [t bs]. cbn [v_item] in H. rec_from H ltac:(blocks V'). reflexivity. }
  assert (Its : forall x, jsize x < jsize j -> decodes (r_vec r_item) (fun l => VSeq (map v_item l)) x).
  { intros x L. apply d_vec. intros y Ly. apply It. lia. }
  clear It.
  destruct j as [| | |s| |[|[s v] [|? ?]]]; try (intro a; split; intro H; [discriminate H|destruct a as [|[]| | |[]|[]| |[]|[]|[]|[]|]; cbn [v_block] in H; inversion H]).
  - intro a. split; intro H.
    + cbn [r_block] in H. break H; injection H as <-; constructor.
    + destruct a as [|[]| | |[]|[]| |[]|[]|[]|[]|]; cbn [v_block] in H; inversion H; subst; reflexivity.
  - assert (Lv : jsize v < jsize (JObj [(s, v)])) by (cbn; lia). assert (Vv := V v Lv).
    assert (V2 : forall x, jsize x < jsize v -> decodes (r_vec r_block) (fun l => VSeq (map v_block l)) x) by (intros; apply V; lia).
    assert (I2 : forall x, jsize x < jsize v -> decodes (r_vec r_item) (fun l => VSeq (map v_item l)) x) by (intros; apply Its; lia). clear V Its.
    intro a. split; intro H.
    + cbn [r_block] in H. fold r_item in H. break H; injection H as <-;
        try match goal with
        | E : r_heading v = Some ?x |- _ => apply d_heading in E; destruct x
        | E : r_code_block v = Some ?x |- _ => apply d_code_block in E; destruct x
        | E : r_link_definition v = Some ?x |- _ => apply d_link_definition in E; destruct x
        | E : r_table v = Some ?x |- _ => apply d_table in E; destruct x end; cbn [v_block]; first [apply e_unit_null | apply e_case];
        first [ assumption | now apply d_str | apply d_inlines; assumption | apply (Vv _); assumption
              | rec_to ltac:(first [blocks V2 | apply (need_iff _ (r_vec r_item) (fun l => VSeq (map v_item l))); [exact I2|nomiss|nomiss]]) ].
    + destruct a as [c|h| |bs|[k its]|cb|s'|d|t|[l bs]|[t bs]|]; cbn [v_block] in H;
        try (inversion H; subst; reflexivity);
        try match type of H with encodes (match ?x with _ => _ end) _ =>
          first [assert (Q := proj2 (d_heading v x)) | assert (Q := proj2 (d_code_block v x)) | assert (Q := proj2 (d_link_definition v x)) | assert (Q := proj2 (d_table v x))]; destruct x end;
        apply case_iff in H; destruct H as (x & E & H); injection E as -> <-; cbn [r_block]; fold r_item; ctags;
        first [ apply d_str in H; now rewrite H | apply d_inlines in H; now rewrite H
              | apply (Vv _) in H; unfold r_vec in H; destruct v; try discriminate H; now rewrite H
              | rewrite (Q H); reflexivity
              | rec_from H ltac:(first [blocks V2 | apply (need_iff _ (r_vec r_item) (fun l => VSeq (map v_item l))); [exact I2|nomiss|nomiss]]); reflexivity ].
Qed.
Lemma d_block : forall j, decodes r_block v_block j.
Proof. intro j. now apply (d_block_n (jsize j)). Qed.
Lemma d_document : forall j, decodes r_document v_document j.
Proof.
  assert (V : forall j x, jsize x < jsize j -> decodes (r_vec r_block) (fun l => VSeq (map v_block l)) x) by (intros j x _; apply d_in; apply d_block).
  intros j a. unfold r_document. split; intro H.
  - break H. injection H as <-. cbn [v_document]. rec_to ltac:(blocks (V j)).
  - destruct a as [bs]. cbn [v_document] in H. rec_from H ltac:(blocks (V j)). reflexivity.
Qed.

(** ** With user data *)
Section Generic.
  Context {T : Type} (r_data : json -> option T) (dflt : T).
  Definition user_value (t : T) : value := VUser (fun j => r_data j = Some t) (t = dflt).
  Local Notation u := user_value.
  Local Notation vi := (v_ginline u). Local Notation vb := (v_gblock u).
  Local Notation ri := (r_ginline r_data dflt). Local Notation rb := (r_gblock r_data dflt).
  Lemma user_iff : forall i j t, r_user r_data dflt i j = Some t <-> holds (u t) "user_data" i j.
  Proof.
    intros i j t. apply field_iff.
    - intros x _. split; [intro H; now apply e_user|]. intro H. unfold user_value in H. inversion H; subst. assumption.
    - cbn. split; [intro H; now injection H|intros ->; reflexivity].
    - cbn. split; [intro H; now injection H|intros ->; reflexivity].
  Qed.
  Ltac user := apply user_iff.
  Ltac grec_to more := unfold noded; cbn [app]; rec_to ltac:(first [user | more]).
  Ltac grec_from H more := unfold noded in H; cbn [app] in H; rec_from H ltac:(first [user | more]).
  Ltac ginls V := apply (need_iff _ (r_vec ri) (fun l => VSeq (map vi l))); [exact V|nomiss|nomiss].
  Lemma d_ginline_n : forall n j, jsize j <= n -> decodes ri vi j.
  Proof.
    induction n as [|n IH]; [intros [] L; cbn in L; lia|]. intros j Lj.
    assert (V : forall x, jsize x < jsize j -> decodes (r_vec ri) (fun l => VSeq (map vi l)) x).
    { intros x L. apply d_vec. intros y Ly. apply IH. lia. }
    destruct j as [| | |s| |[|[s v] [|? ?]]]; try (intro a; split; intro H; [discriminate H|destruct a as [| | | |[]|[]|[]| | | | | |]; cbn [v_ginline] in H; inversion H]).
    assert (V2 : forall x, jsize x < jsize v -> decodes (r_vec ri) (fun l => VSeq (map vi l)) x) by (intros; apply V; cbn in *; lia). clear V.
    intro a. split; intro H.
    - cbn [r_ginline] in H. break H; injection H as <-; cbn [v_ginline]; apply e_case; grec_to ltac:(ginls V2).
    - destruct a as [t d|d|t d|t d|[a t c d]|[l t d]|[a t al d]|c d|c d|c d|t d|t d|d]; cbn [v_ginline] in H;
        apply case_iff in H; destruct H as (x & E & H); injection E as -> <-; cbn [r_ginline]; ctags; grec_from H ltac:(ginls V2); reflexivity.
  Qed.
  Lemma d_ginline : forall j, decodes ri vi j.
  Proof. intro j. now apply (d_ginline_n (jsize j)). Qed.
  Lemma d_ginlines : forall j, decodes (r_ginlines r_data dflt) (v_ginlines u) j.
  Proof. intro j. apply d_in. apply d_ginline. Qed.
  Ltac readers2 := first
    [ user
    | apply (need_iff _ (r_ginlines r_data dflt) (v_ginlines u)); [intros; apply d_ginlines|nomiss|nomiss]
    | apply (need_iff _ (r_vec (r_vec (r_ginlines r_data dflt))) (v_rows vi)); [intros; apply (d_rows _ ri); apply d_ginline|nomiss|nomiss]
    | apply (need_iff _ (r_vec r_alignment) (fun l => VSeq (map v_alignment l))); [intros; apply d_alignments|nomiss|nomiss] ].
  Local Open Scope string_scope.
  Lemma d_gheading : forall j, decodes (r_gheading r_data dflt) (fun h => match h with GHeading k c d => noded u [("kind", v_heading_kind k); ("content", v_ginlines u c)] d end) j.
  Proof.
    intros j a. unfold r_gheading. split; intro H.
    - break H. injection H as <-. grec_to readers2.
    - destruct a as [k c d]. grec_from H readers2. reflexivity.
  Qed.
  Lemma d_gcode_block : forall j, decodes (r_gcode_block r_data dflt) (fun h => match h with GCodeBlock k l d => noded u [("kind", v_code_kind k); ("literal", VStr l)] d end) j.
  Proof.
    intros j a. unfold r_gcode_block. split; intro H.
    - break H. injection H as <-. grec_to readers2.
    - destruct a as [k l d]. grec_from H readers2. reflexivity.
  Qed.
  Lemma d_glink_definition : forall j, decodes (r_glink_definition r_data dflt) (fun h => match h with GLinkDefinition l a t d => noded u [("label", v_ginlines u l); ("destination", VStr a); ("title", v_opt t)] d end) j.
  Proof.
    intros j a. unfold r_glink_definition. split; intro H.
    - break H. injection H as <-. grec_to readers2.
    - destruct a as [l a t d]. grec_from H readers2. reflexivity.
  Qed.
  Lemma d_gtable : forall j, decodes (r_gtable r_data dflt) (fun h => match h with GTable r a d => noded u [("rows", v_rows vi r); ("alignments", VSeq (map v_alignment a))] d end) j.
  Proof.
    intros j a. unfold r_gtable. split; intro H.
    - break H. injection H as <-. grec_to readers2.
    - destruct a as [r a d]. grec_from H readers2. reflexivity.
  Qed.
  Lemma d_glist_kind : forall j, decodes r_glist_kind v_glist_kind j.
  Proof.
    intros j a. unfold r_glist_kind. assert (Q : v_glist_kind a = v_list_kind (from_glist_kind a)) by (now destruct a). rewrite Q. assert (D : r_list_kind j = Some (from_glist_kind a) <-> encodes (v_list_kind (from_glist_kind a)) j) by apply d_list_kind. rewrite <- D.
    destruct (r_list_kind j) as [k|]; cbn; [|split; discriminate]. split; intro H; injection H as H; subst; [now destruct k|now destruct a].
  Qed.
  Definition gv_item (it : glist_item T) : value :=
    match it with GListItem t bs d => noded u [("task", VOpt (option_map v_task t)); ("blocks", VSeq (map vb bs))] d end.
  Definition gr_item (y : json) : option (glist_item T) :=
    if sized 3 y then
      t <? maybe r_task "task" 0 y ;;
      bs <? need (fun z => match z with JArr l => r_all rb l | _ => None end) "blocks" 1 y ;;
      d <? r_user r_data dflt 2 y ;; Some (GListItem t bs d)
    else None.
  Ltac gblocks V := apply (need_iff _ (r_vec rb) (fun l => VSeq (map vb l))); [exact V|nomiss|nomiss].
  Ltac gitems V := apply (need_iff _ (r_vec gr_item) (fun l => VSeq (map gv_item l))); [exact V|nomiss|nomiss].
  Ltac gkind := apply (need_iff _ r_glist_kind v_glist_kind); [intros; apply d_glist_kind|nomiss|nomiss].
  Lemma d_gblock_n : forall n j, jsize j <= n -> decodes rb vb j.
  Proof.
    induction n as [|n IH]; [intros [] L; cbn in L; lia|]. intros j Lj.
    assert (V : forall x, jsize x < jsize j -> decodes (r_vec rb) (fun l => VSeq (map vb l)) x).
    { intros x L. apply d_vec. intros y Ly. apply IH. lia. }
    assert (It : forall x, jsize x < jsize j -> decodes gr_item gv_item x).
    { intros x L a. unfold gr_item. assert (V' : forall y, jsize y < jsize x -> decodes (r_vec rb) (fun l => VSeq (map vb l)) y) by (intros; apply V; lia). split; intro H.
      - break H. injection H as <-. cbn [gv_item]. grec_to ltac:(gblocks V').
      - destruct a as [t bs d]. cbn [gv_item] in H. grec_from H ltac:(gblocks V'). reflexivity. }
    assert (Its : forall x, jsize x < jsize j -> decodes (r_vec gr_item) (fun l => VSeq (map gv_item l)) x).
    { intros x L. apply d_vec. intros y Ly. apply It. lia. }
    clear It.
    destruct j as [| | |s| |[|[s v] [|? ?]]]; try (intro a; split; intro H; [discriminate H|destruct a as [|[]| | |[]|[]| |[]|[]|[]|[]|]; cbn [v_gblock] in H; inversion H]).
    assert (V2 : forall x, jsize x < jsize v -> decodes (r_vec rb) (fun l => VSeq (map vb l)) x) by (intros; apply V; cbn in *; lia).
    assert (I2 : forall x, jsize x < jsize v -> decodes (r_vec gr_item) (fun l => VSeq (map gv_item l)) x) by (intros; apply Its; cbn in *; lia). clear V Its.
    intro a. split; intro H.
    - cbn [r_gblock] in H. fold gr_item in H. break H; injection H as <-;
        try match goal with
        | E : r_gheading _ _ v = Some ?x |- _ => apply d_gheading in E; destruct x
        | E : r_gcode_block _ _ v = Some ?x |- _ => apply d_gcode_block in E; destruct x
        | E : r_glink_definition _ _ v = Some ?x |- _ => apply d_glink_definition in E; destruct x
        | E : r_gtable _ _ v = Some ?x |- _ => apply d_gtable in E; destruct x end; cbn [v_gblock]; apply e_case;
        first [ assumption | grec_to ltac:(first [readers2 | gkind | gblocks V2 | gitems I2]) ].
    - destruct a as [c d|h|d|bs d|[k its d]|cb|s' d|ld|t|[l bs d]|[t bs d]|d]; cbn [v_gblock] in H;
        try match type of H with encodes (match ?x with _ => _ end) _ =>
          first [assert (Q := proj2 (d_gheading v x)) | assert (Q := proj2 (d_gcode_block v x)) | assert (Q := proj2 (d_glink_definition v x)) | assert (Q := proj2 (d_gtable v x))]; destruct x end;
        apply case_iff in H; destruct H as (x & E & H); injection E as -> <-; cbn [r_gblock]; fold gr_item; ctags;
        first [ rewrite (Q H); reflexivity
              | grec_from H ltac:(first [readers2 | gkind | gblocks V2 | gitems I2]); reflexivity ].
  Qed.
  Lemma d_gblock : forall j, decodes rb vb j.
  Proof. intro j. now apply (d_gblock_n (jsize j)). Qed.
  Lemma d_gdocument : forall j, decodes (r_gdocument r_data dflt) (v_gdocument u) j.
  Proof.
    assert (V : forall j x, jsize x < jsize j -> decodes (r_vec rb) (fun l => VSeq (map vb l)) x) by (intros j x _; apply d_in; apply d_gblock).
    intros j a. unfold r_gdocument. split; intro H.
    - break H. injection H as <-. cbn [v_gdocument]. grec_to ltac:(gblocks (V j)).
    - destruct a as [bs d]. cbn [v_gdocument] in H. grec_from H ltac:(gblocks (V j)). reflexivity.
  Qed.
End Generic.

(** ** What is encoded has machine numbers *)
Definition enc (v : value) : Prop := exists j, encodes v j.
Lemma enc_case : forall n v, enc (VCase n v) -> enc v.
Proof. intros n v (j & H). apply case_iff in H as (x & _ & H). now exists x. Qed.
Lemma enc_seq : forall l v, enc (VSeq l) -> In v l -> enc v.
Proof. intros l v (j & H) I. inversion H as [| |? js F| | | | | | | |]; subst. clear H. induction F as [|a x l' js E F IH]; [destruct I|]. destruct I as [<-|I]; [now exists x|now apply IH]. Qed.
Lemma enc_rec : forall fs n v, enc (VRec fs) -> In (n, v) fs -> ~ may_miss v -> enc v.
Proof.
  intros fs n v (j & H) I N. inversion H as [| | | | | | | |? o K|g r js F D|]; subst.
  - destruct (K n v I) as [(b & x & a & _ & _ & E)|(_ & M)]; [now exists x|contradiction].
  - apply in_app_or in I as [I|I].
    + clear -F I. induction F as [|f x g js E F IH]; [destruct I|]. destruct I as [->|I]; [exists x; exact E|now apply IH].
    + rewrite Forall_forall in D. specialize (D _ I). elim N. cbn in D. destruct v; try destruct D. exact D.
Qed.
Lemma enc_num : forall b n, enc (VNum b n) -> (n < 2 ^ b)%N.
Proof. intros b n (j & H). now inversion H. Qed.
Lemma enc_numbers : forall b, enc (v_block b) -> forall b', In b' (block_preorder b) -> machine_number b'.
Proof.
  assert (L : forall bs, Forall (fun b => enc (v_block b) -> forall b', In b' (block_preorder b) -> machine_number b') bs -> enc (VSeq (map v_block bs)) ->
    forall b', In b' (flat_map block_preorder bs) -> machine_number b').
  { intros bs H E b' I. apply in_flat_map in I as (b & Ib & I). rewrite Forall_forall in H. apply (H b Ib); [|exact I]. eapply enc_seq; [exact E|]. now apply in_map. }
  intro b. induction b as [c|h| |bs IH|k items IH|c|s|d|t|l bs IH|t bs IH|] using block_ind'; intros E b' I; cbn [v_block] in E; cbn [block_preorder] in I;
    (destruct I as [<-|I]; [try exact Logic.I|]); try (destruct I; fail).
  - destruct h as [[n|l] c]; [|exact Logic.I]. apply enc_case in E. apply (enc_rec _ "kind" (v_heading_kind (Atx n))) in E; [|now left|intros []]. apply enc_case in E. exact (enc_num _ _ E).
  - apply enc_case in E. exact (L bs IH E b' I).
  - destruct k as [n|k]; [|exact Logic.I]. apply enc_case in E. apply (enc_rec _ "kind" (v_list_kind (Ordered n))) in E; [|now left|intros []].
    apply enc_case in E. apply (enc_rec _ "start" (VNum 64 n)) in E; [|now left|intros []]. exact (enc_num _ _ E).
  - apply enc_case in E. apply (enc_rec _ "items" (VSeq (map v_item items))) in E; [|right; left; reflexivity|intros []]. cbn [l_items] in I. apply in_flat_map in I as ([t bs] & Ii & I).
    rewrite Forall_forall in IH. specialize (IH _ Ii). cbn [li_blocks] in *. eapply (L bs IH); [|exact I].
    apply (enc_seq _ (v_item (ListItem t bs))) in E; [|apply in_map, Ii]. apply (enc_rec _ "blocks" (VSeq (map v_block bs))) in E; [exact E|right; left; reflexivity|intros []].
  - apply enc_case in E. apply (enc_rec _ "blocks" (VSeq (map v_block bs))) in E; [|right; left; reflexivity|intros []]. exact (L bs IH E b' I).
  - apply enc_case in E. apply (enc_rec _ "blocks" (VSeq (map v_block bs))) in E; [|right; left; reflexivity|intros []]. exact (L bs IH E b' I).
Qed.
Lemma read_numbers : forall d j, encodes (v_document d) j -> machine_numbers d.
Proof.
  intros [bs] j H b I. cbn [v_document] in H. assert (E : enc (VRec [("blocks"%string, VSeq (map v_block bs))])) by (now exists j).
  apply (enc_rec _ "blocks" (VSeq (map v_block bs))) in E; [|left; reflexivity|intros []]. unfold doc_blocks in I. cbn [d_blocks] in I. apply in_flat_map in I as (b0 & I0 & I).
  apply (enc_numbers b0); [|exact I]. eapply enc_seq; [exact E|]. now apply in_map.
Qed.
