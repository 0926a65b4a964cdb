(** [many1] and [many0] agree when [many1] succeeds. *)
From Coq Require Import String Lia.
From Verif Require Import Nom NomFacts ParserConfig ParserInline ParserInlineFacts ParserTotal.
Import ListNotations.
Open Scope list_scope.
Local Notation len := (@List.length _).

Lemma many1_many0 : forall A (p : parser A) s rr l, eats true p -> many1 p s = Ok rr l -> many0 p s = Ok rr l.
Proof.
  intros A p s rr l He E. unfold many1, bind in E. unfold many0. cbn [many0_go]. destruct (p s) as [r1 a| |] eqn:E1; try discriminate.
  pose proof (eats_lt _ _ _ _ _ He E1) as L. destruct (Nat.eqb_spec (len r1) (len s)) as [X|_]; [lia|].
  unfold pmap, bind, ret in E. destruct (many0 p r1) as [r2 l2| |] eqn:E2; try discriminate. injection E as <- <-.
  unfold many0 in E2.
  assert (G : forall n m s r l, len s < n -> len s < m -> many0_go n p s = Ok r l -> many0_go m p s = Ok r l).
  { clear - He. induction n as [|n IH]; intros [|m] s r l H1 H2; try lia. cbn [many0_go]. destruct (p s) as [r1 a| |] eqn:E; auto.
    pose proof (eats_lt _ _ _ _ _ He E) as L. destruct (_ =? _); auto. destruct (many0_go n p r1) as [r2 l2| |] eqn:E2; try discriminate.
    rewrite (IH m r1 r2 l2) by (assumption || lia). auto. }
  rewrite (G (S (len r1)) (len s) r1 r2 l2) by (assumption || lia). reflexivity.
Qed.
Lemma inline_many01 : forall cfg, custom_ok cfg -> forall s l, inline_many1 cfg s = Ok [] l -> inline_many0 cfg s = Ok [] l.
Proof.
  intros cfg Hok s l E. rewrite inline_many1_unfold in E by exact Hok. rewrite inline_many0_unfold by exact Hok.
  unfold pmap, bind, ret in *. destruct (many1 _ s) as [r1 ll| |] eqn:Em; try discriminate. injection E as -> <-.
  now rewrite (many1_many0 _ _ _ _ _ (eats_inline cfg Hok _) Em).
Qed.

