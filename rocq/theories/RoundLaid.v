(** From layouts to texts the parser reads. *)
From Coq Require Import String Lia.
From Verif Require Export RoundTable MdProps.
Import ListNotations.
Open Scope list_scope.
Local Notation len := (@List.length _).

(** ** Layouts at the left margin *)
Definition flat (ps : pieces) : Prop := Forall (fun x => fst x = 0) ps.
Lemma at0_flat : forall l, flat (at_ 0 l).
Proof. intros l. unfold flat, at_. apply Forall_map. apply Forall_forall. reflexivity. Qed.
Lemma next0 : forall aft i ps, flat ps -> i = 0 -> (aft = None \/ aft = Some 0) -> next_indent aft i ps = 0.
Proof. intros aft i [|[j p] ps] F -> H; [destruct H as [->| ->]; reflexivity|]. inversion F. assumption. Qed.
Lemma laid_none : forall ps o, flat ps -> laid (Some 0) ps o -> laid None ps o.
Proof.
  intros ps o F L. remember (Some 0) as aft eqn:A.
  induction L as [|? ? s ps o L IH|? ? ps o L IH|? ? ps o L IH|? ? ps o L IH|? ? inner t ps o Q _ L IH|? ? inner t ps o Q _ L IH]; [apply laid_nil|..];
    inversion F as [|x y F1 F2]; subst; cbn [fst] in *; subst; specialize (IH F2 eq_refl).
  - now apply laid_word.
  - now apply laid_space.
  - replace (next_indent (Some 0) 0 ps) with (next_indent None 0 ps) by (rewrite !next0; auto). now apply laid_break.
  - replace (next_indent (Some 0) 0 ps) with (next_indent None 0 ps) by (rewrite !next0; auto). now apply laid_newline.
  - now apply laid_quoted.
  - now apply laid_alerted.
Qed.
(** ** Rust's [lines] *)
Definition solid (o : str) : Prop := ~ In c_cr o /\ exists a c, o = a ++ [c] /\ c <> c_nl.
Lemma lines_split : forall o, solid o -> lines o = split_lines o.
Proof.
  intros o (Hc & a & c & E & Hn).
  assert (L : last (split_lines o) [] <> []).
  { rewrite E. clear -Hn. induction a as [|x a IH].
    - cbn. destruct (N.eqb_spec c c_nl); [congruence|discriminate].
    - cbn [app split_lines]. destruct (N.eqb x c_nl).
      + pose proof (split_ne (a ++ [c])). destruct (split_lines (a ++ [c])); [congruence|exact IH].
      + pose proof (split_ne (a ++ [c])). destruct (split_lines (a ++ [c])) as [|l ls]; [congruence|]. destruct ls; [discriminate|exact IH]. }
  assert (C : Forall (fun l => ~ In c_cr l) (split_lines o)).
  { apply Forall_forall. intros l I J. apply Hc. rewrite <- (split_join o). clear -I J. induction (split_lines o) as [|x ls IH]; [contradiction|].
    rewrite join_flat. apply in_or_app. destruct I as [->|I]; [now left|right]. apply in_flat_map. exists l. split; [exact I|now right]. }
  pose proof (split_free o) as F. pose proof (split_ne o) as N. rewrite <- (split_join o) at 1.
  induction (split_lines o) as [|l ls IH]; [congruence|]. inversion F; subst. inversion C; subst. unfold lines in *.
  destruct ls as [|l2 ls].
  - cbn [join last] in *. rewrite <- (app_nil_r l) at 1. rewrite lines_go_prefix by assumption. rewrite app_nil_r. cbn.
    destruct (rev l) eqn:R; [|now rewrite <- R, rev_involutive]. exfalso. apply L. rewrite <- (rev_involutive l), R. reflexivity.
  - rewrite join_cons by discriminate. rewrite lines_go_prefix by assumption. rewrite app_nil_r. cbn [app lines_go]. rewrite N.eqb_refl.
    f_equal; [|apply IH; [exact L|assumption|assumption|discriminate]].
    destruct (rev l) as [|d t] eqn:R; [rewrite <- (rev_involutive l), R; reflexivity|].
    destruct (N.eqb_spec d c_cr) as [->|]; [|rewrite <- R; apply rev_involutive].
    exfalso. match goal with H : ~ In c_cr l |- _ => apply H end. rewrite <- (rev_involutive l), R. cbn. apply in_or_app. right. now left.
Qed.
Lemma solid_join : forall os, os <> [] -> Forall solid os -> solid (join [c_nl; c_nl] os).
Proof.
  intros os Hne F. induction F as [|o os Ho Hos IH]; [congruence|]. destruct os as [|o2 os]; [exact Ho|].
  rewrite join_cons by discriminate. destruct IH as (I1 & a & c & E & I2); [discriminate|]. split.
  - intros J. apply in_app_or in J as [J|J]; [now apply Ho|]. destruct J as [J|[J|J]]; [discriminate|discriminate|]. now apply I1.
  - exists (o ++ [c_nl; c_nl] ++ a), c. split; [|exact I2]. rewrite E. now rewrite <- !app_assoc.
Qed.
Lemma solid_lines : forall o, solid o -> Forall (Forall line_char) (split_lines o).
Proof.
  intros o [Hc _]. pose proof (split_free o) as F. apply Forall_forall. intros l I. apply Forall_forall. intros c J.
  rewrite Forall_forall in F. split; [intros ->; exact (F l I J)|]. intros ->. apply Hc. rewrite <- (split_join o). clear -I J. induction (split_lines o) as [|x ls IH]; [contradiction|].
  rewrite join_flat. apply in_or_app. destruct I as [->|I]; [now left|right]. apply in_flat_map. exists l. split; [exact I|now right].
Qed.

(** ** Words *)
Definition between (ws : list str) : list (option str) := flat_map (fun x => [None; Some x]) ws.
Lemma word_white : forall w, word w -> w <> [] /\ Forall (fun c => is_whitespace c = false) w.
Proof. intros w [H F]. split; [exact H|]. eapply Forall_impl; [|exact F]. now intros c []. Qed.
Lemma unwrap_tokens : forall t, tokens (unwrap_text t) = tokens t.
Proof. exact tokens_nl. Qed.
Lemma unwrap_app : forall a b, unwrap_text (a ++ b) = unwrap_text a ++ unwrap_text b.
Proof. intros. apply map_app. Qed.
