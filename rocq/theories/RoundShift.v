(** Layouts of indented pieces. *)
From Coq Require Import String Lia.
From Verif Require Export RoundLaid.
Import ListNotations.
Open Scope list_scope.
Local Notation len := (@List.length _).

(** ** Pieces further to the right *)
Definition shift (i : nat) (ps : pieces) : pieces := map (fun x => (i + fst x, snd x)) ps.
Lemma shift_app : forall i a b, shift i (a ++ b) = shift i a ++ shift i b.
Proof. intros. apply map_app. Qed.
Lemma shift_at : forall i j l, shift i (at_ j l) = at_ (i + j) l.
Proof. intros. unfold shift, at_. rewrite map_map. reflexivity. Qed.
Lemma shift_blocks : forall config i j l, shift i (blocks_pieces config j l) = blocks_pieces config (i + j) (map (fun x => (fst x, shift i (snd x))) l).
Proof.
  intros config i j [|[b ps] l]; [reflexivity|]. cbn [blocks_pieces map fst snd]. rewrite shift_app. f_equal.
  induction l as [|[b2 ps2] l IH]; [reflexivity|]. cbn [separated map fst snd]. rewrite !shift_app, shift_at, IH. reflexivity.
Qed.
Lemma shift_items : forall config i j kind l k, shift i (item_pieces config j k kind l) = item_pieces config (i + j) k kind (map (fun x => (fst x, shift i (snd x))) l).
Proof.
  intros config i j kind l. induction l as [|[t ps] l IH]; intros k; [reflexivity|]. cbn [item_pieces map fst snd]. rewrite !shift_app, shift_at, IH.
  destruct (k =? 0); reflexivity.
Qed.
Lemma view_shift : forall upper udigit config i b j, block_view upper udigit config (i + j) b = shift i (block_view upper udigit config j b).
Proof.
  intros upper udigit config i.
  assert (HL : forall bs j, Forall (fun b => forall j, block_view upper udigit config (i + j) b = shift i (block_view upper udigit config j b)) bs ->
    blocks_pieces config (i + j) (map (fun x => (x, block_view upper udigit config (i + j) x)) bs) = shift i (blocks_pieces config j (map (fun x => (x, block_view upper udigit config j x)) bs))).
  { intros bs j H. rewrite shift_blocks, map_map. cbn [fst snd]. f_equal. apply map_ext_in. intros x X. rewrite Forall_forall in H. now rewrite H. }
  induction b as [c|h| |bs IH|k items IH|c|s|d|t|l bs IH|t bs IH|] using block_ind'; intros j; cbn [block_view]; rewrite ?shift_at; try reflexivity.
  - rewrite shift_items, map_map. cbn [fst snd]. f_equal. apply map_ext_in. intros it I. f_equal. rewrite Forall_forall in IH. rewrite <- Nat.add_assoc. now apply HL, IH.
  - destruct (t_rows t); reflexivity.
  - cbn [shift map fst snd]. f_equal. now apply HL.
  - cbn [shift map fst snd]. f_equal. destruct bs; reflexivity.
Qed.
(** texts without line breaks *)
Definition one_line_piece (x : nat * piece) : Prop := match snd x with Word s => nl_free s | _ => True end.
Lemma lines_free : forall s, Forall nl_free (lines s).
Proof.
  intros s. unfold lines. assert (H : nl_free []) by (intros []). revert H. generalize (@nil char) as cur. induction s as [|c s IH]; intros cur H; cbn [lines_go].
  - destruct cur as [|d cur]; constructor; [|constructor]. intro I. apply H. now rewrite <- in_rev in I.
  - destruct (N.eqb_spec c c_nl) as [->|N].
    + constructor; [|apply IH; intros []]. intro I. apply H. destruct cur as [|d cur]; [destruct I|].
      destruct (N.eqb d c_cr); apply in_rev in I; [now right|exact I].
    + apply IH. intros [->|I]; [congruence|contradiction].
Qed.
Lemma ind_break : forall i j s, ind i (break_to j ++ s) = break_to (i + j) ++ ind i s.
Proof.
  intros i j s. unfold break_to. cbn [app]. rewrite ind_nl. rewrite ind_app, (ind_free i (rep j c_sp)).
  - unfold rep. rewrite repeat_app, <- app_assoc. reflexivity.
  - intro I. apply repeat_spec in I. discriminate.
Qed.
Lemma laid_shift : forall i ps o, Forall one_line_piece ps -> laid None (shift i ps) o -> exists o', laid None ps o' /\ o = ind i o'.
Proof.
  intros i ps. assert (NI : forall j ps, next_indent None (i + j) (shift i ps) = i + next_indent None j ps) by (intros j [|[] ?]; reflexivity).
  induction ps as [|[j p] ps IH]; intros o F L.
  - inversion L; subst. exists []. split; [constructor|reflexivity].
  - inversion F as [|? ? F1 F2]; subst. cbn [shift map fst snd] in L. fold (shift i ps) in L. unfold one_line_piece in F1. cbn [snd] in F1.
    inversion L; subst; match goal with H : laid None (shift i ps) _ |- _ => apply IH in H as (o' & L' & ->); [|exact F2] end.
    + exists (s ++ o'). split; [now constructor|]. rewrite ind_app. now rewrite (ind_free i s F1).
    + exists (c_sp :: o'). split; [now constructor|]. rewrite ind_cons by discriminate. reflexivity.
    + eexists. split; [apply laid_break; exact L'|]. now rewrite NI, ind_break.
    + eexists. split; [apply laid_newline; exact L'|]. now rewrite NI, ind_break.
    + eexists. split; [apply laid_quoted; eassumption|]. rewrite ind_app. f_equal.
      pose proof (lines_free t) as Fl. destruct (lines t) as [|l ls]; [reflexivity|]. cbn [map]. rewrite !join_flat.
      assert (Q : forall l, nl_free l -> nl_free (lit "> " ++ l)) by (intros x X [Y|[Y|Y]]; [discriminate|discriminate|contradiction]).
      inversion Fl as [|? ? A1 A2]; subst. rewrite ind_app, (ind_free i _ (Q l A1)). f_equal. clear -A2 Q.
      induction A2 as [|x ls X A2 IH]; [reflexivity|]. cbn [map flat_map]. rewrite ind_app, IH. f_equal. rewrite ind_break. now rewrite (ind_free i _ (Q x X)).
    + eexists. split; [apply laid_alerted; eassumption|]. rewrite ind_app. f_equal. pose proof (lines_free t) as Fl. clear -Fl. induction Fl as [|l ls X Fl IHl]; [reflexivity|]. cbn [flat_map]. rewrite ind_app, IHl. f_equal.
      rewrite ind_break. f_equal. unfold alert_text. destruct (forallb is_whitespace l); [reflexivity|]. rewrite ind_free; [reflexivity|]. intros [Y|[Y|Y]]; [discriminate|discriminate|contradiction].
Qed.

(** ** Layouts that do not end with a blank *)
Inductive closed : pieces -> Prop :=
| closed_word : forall i s, closed [(i, Word s)]
| closed_quote : forall i ps, closed [(i, Quoted ps)]
| closed_alert : forall i ps, closed [(i, Alerted ps)]
| closed_cons : forall x ps, closed ps -> closed (x :: ps).
Lemma closed_app : forall a b, closed b -> closed (a ++ b).
Proof. induction a as [|x a IH]; intros b H; [exact H|]. cbn [app]. constructor. now apply IH. Qed.
Lemma closed_shift : forall i ps, closed ps -> closed (shift i ps).
Proof. induction 1; [apply closed_word|apply closed_quote|apply closed_alert|]. cbn [shift map]. now constructor. Qed.
Lemma closed_at : forall i l w, closed (at_ i (l ++ [Word w])).
Proof. intros i l w. unfold at_. rewrite map_app. apply closed_app. apply closed_word. Qed.
Lemma laid_closed : forall ps, closed ps -> forall aft aft' o, laid aft ps o -> laid aft' ps o.
Proof.
  induction 1 as [i s|i ps|i ps|[i p] ps H IH]; intros aft aft' o L.
  - inversion L; subst. match goal with H : laid _ [] _ |- _ => inversion H; subst end. constructor. constructor.
  - inversion L; subst. match goal with H : laid _ [] _ |- _ => inversion H; subst end. constructor; [assumption|constructor].
  - inversion L; subst. match goal with H : laid _ [] _ |- _ => inversion H; subst end. constructor; [assumption|constructor].
  - assert (N : next_indent aft i ps = next_indent aft' i ps) by (destruct H; reflexivity).
    inversion L; subst; rewrite ?N; try (constructor; eauto; fail).

Qed.
(** ** Sequences of blocks *)
Definition starts_at0 (ps : pieces) : Prop := exists p qs, ps = (0, p) :: qs.
Lemma blocks_split : forall config (l : list (block * pieces)), md_empty_line_before_list config = true \/ Forall (fun x => match fst x with BList _ => False | _ => True end) l ->
  Forall (fun x => closed (snd x) /\ starts_at0 (snd x)) l -> forall o, laid None (blocks_pieces config 0 l) o ->
  exists os, Forall2 (fun x o => laid None (snd x) o) l os /\ o = join [c_nl; c_nl] os.
Proof.
  intros config l Hc F. destruct l as [|[b ps] l]; intros o L; [inversion L; subst; exists []; now split|]. cbn [blocks_pieces] in L.
  assert (HC : md_empty_line_before_list config = true \/ Forall (fun x => match fst x with BList _ => False | _ => True end) l).
  { destruct Hc as [Hc|Hc]; [now left|right; now inversion Hc]. }
  clear Hc. revert b ps o F L. induction l as [|[b2 ps2] l IH]; intros b ps o F L.
  - cbn [separated] in L. rewrite app_nil_r in L. exists [o]. split; [|reflexivity]. constructor; [exact L|constructor].
  - cbn [separated] in L. assert (S : separator config b2 = [Newline; Newline]).
    { destruct HC as [HC|HC]; [destruct b2; cbn; rewrite ?HC; reflexivity|]. inversion HC; subst. cbn [fst] in *. destruct b2; try reflexivity. contradiction. }
    rewrite S in L. cbn [at_ map app] in L. apply laid_split in L as (oa & ob & -> & La & Lb).
    inversion F as [|? ? F1 F2]; subst. cbn [snd] in *. apply (laid_closed ps (proj1 F1) _ None) in La.
    inversion F2 as [|? ? F3 F4]; subst. cbn [snd] in *.
    inversion Lb as [| | | |? ? o1 L1 E1 E2| |]; subst. inversion L1 as [| | | |? ? o2 L2 E1 E2| |]; subst.
    assert (N : next_indent None 0 (ps2 ++ separated config 0 l) = 0) by (destruct F3 as [_ (p & qs & ->)]; reflexivity).
    rewrite N. cbn [next_indent].
    destruct IH with (b := b2) (ps := ps2) (o := o2) as (os & F5 & E); [destruct HC as [HC|HC]; [now left|right; now inversion HC]|exact F2|exact L2|].
    exists (oa :: os). split; [now constructor|]. inversion F5; subst. reflexivity.
Qed.
Lemma closed_blocks : forall config i l, l <> [] -> Forall (fun x => closed (snd x)) l -> closed (blocks_pieces config i l).
Proof.
  intros config i [|[b ps] l] N F; [congruence|]. cbn [blocks_pieces]. inversion F as [|? ? F1 F2]; subst. cbn [snd] in *. clear F N. revert ps F1. clear b. induction F2 as [|[b2 ps2] l F1 F2 IH]; intros ps F.
  - cbn [separated]. now rewrite app_nil_r.
  - cbn [separated]. apply closed_app, closed_app. now apply IH.
Qed.
