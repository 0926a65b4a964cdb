(** Every HTML block begins with "<" in front of a letter, "/", "!" or "?". *)
From Coq Require Import String.
From Verif Require Import SpecEol SpecParser Nom NomFacts ParserBlock SpecInline SyntaxFacts ShapeFacts SyntaxBlock SyntaxHtml SpecBlock.
Import ListNotations.
Open Scope list_scope.

Lemma html_tag : forall m v r, html_at m v r -> exists c t, m = ch "<" :: c :: t /\ (is_alpha c = true \/ In c (lit "/!?")).
Proof.
  assert (L : forall t n, map to_lower t = n -> (exists c n', n = c :: n' /\ is_alpha c = true) -> exists c t', t = c :: t' /\ is_alpha c = true).
  { intros t n E (c & n' & -> & A). destruct t as [|x t]; [discriminate|]. injection E as E _. exists x, t. split; [reflexivity|]. subst c. unfold is_alpha in *. destruct (is_upper x) eqn:U; [reflexivity|]. unfold to_lower in A. rewrite U in A. now rewrite U in A. }
  intros m v r H. apply first_in in H as (R & I & H).
  destruct I as [<-|[<-|[<-|[<-|[<-|[<-|[<-|[]]]]]]]].
  - destruct H as (t & x & b & e & -> & -> & I & _). destruct (L t _ eq_refl) as (c & t' & -> & A).
    + repeat destruct I as [<-|I]; try contradiction; (eexists _, _; split; [reflexivity|reflexivity]).
    + exists c. eexists. split; [reflexivity|now left].
  - destruct H as (b & -> & -> & _). exists (ch "!"). eexists. split; [reflexivity|right; cbn; tauto].
  - destruct H as (b & -> & -> & _). exists (ch "?"). eexists. split; [reflexivity|right; cbn; tauto].
  - destruct H as (c & _ & b & -> & -> & _). exists (ch "!"). eexists. split; [reflexivity|right; cbn; tauto].
  - destruct H as (b & -> & -> & _). exists (ch "!"). eexists. split; [reflexivity|right; cbn; tauto].
  - destruct H as (o & t & x & b & e & m0 & -> & -> & O & _ & F & _). destruct O as [<-|[<-|[]]].
    + apply first_in in F as (R & I & F). apply in_map_iff in I as (n & <- & I). destruct F as [_ F].
      destruct (L t _ F) as (c & t' & -> & A).
      * unfold block_names in I. cbn [map] in I. repeat destruct I as [<-|I]; try contradiction; (eexists _, _; split; [reflexivity|reflexivity]).
      * exists c. eexists. split; [reflexivity|now left].
    + exists (ch "/"). eexists. split; [reflexivity|right; cbn; tauto].
  - destruct H as (t & x & b & e & _ & _ & [O|O] & _).
    + destruct O as (m0 & n & m1 & l & m2 & w & c & -> & ((-> & _) & (d & u & -> & A)) & _). exists d. eexists. split; [reflexivity|now left].
    + destruct O as (m0 & n & w & -> & _). exists (ch "/"). eexists. split; [reflexivity|right; cbn; tauto].
Qed.
Lemma html_opens : forall m v r, html_at m v r -> opens_tag m.
Proof. intros m v r H. apply html_tag in H as (c & t & -> & H). now exists [], c, t. Qed.
Lemma html_dead : forall s, ~ opens_tag s -> p_html_block s = Err.
Proof.
  intros s H. apply (proj2 (exact_err _ _ exact_html_block s)). intros (v & r & X). apply H. inversion X as [k m w q _ Y]; subst. apply html_opens in Y as (a & c & b & -> & P).
  exists (repeat c_sp k ++ a), c, b. split; [now rewrite <- app_assoc|exact P].
Qed.
