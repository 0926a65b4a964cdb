(** C81: blank lines before the document. *)
From Coq Require Import String Lia List.
From Verif Require Import SpecParser SpecEol Nom NomFacts ParserInlineFacts ParserBlock ParserBlockFacts EolBlocks.
Import ListNotations.
Open Scope list_scope.
Local Notation len := (@List.length _).

(** spaces and tabs, then LF or CR LF *)
Inductive blank_lines : str -> Prop :=
| bl_nil : blank_lines []
| bl_line : forall w e r, (forall c, In c w -> c = 32%N \/ c = 9%N) -> e = [10%N] \/ e = [13%N; 10%N] -> blank_lines r -> blank_lines (w ++ e ++ r).

Ltac ll := unfold char, str in *; lia.
Ltac neq := match goal with |- context [?a =? ?b] => replace (a =? b) with false by (symmetry; apply Nat.eqb_neq; ll) end.
Lemma span_blank : forall w e s, (forall c, In c w -> c = 32%N \/ c = 9%N) -> e = [10%N] \/ e = [13%N; 10%N] -> span is_space (w ++ e ++ s) = (w, e ++ s).
Proof.
  intros w e s W E. induction w as [|c w IH]; [destruct E as [-> | ->]; reflexivity|]. cbn [app span].
  replace (is_space c) with true by (destruct (W c (or_introl eq_refl)) as [-> | ->]; reflexivity).
  rewrite IH; [reflexivity|]. intros x J. apply W. now right.
Qed.
Lemma line_blank : forall w e s, (forall c, In c w -> c = 32%N \/ c = 9%N) -> e = [10%N] \/ e = [13%N; 10%N] ->
  preceded space0 eof_or_eol (w ++ e ++ s) = Ok s e.
Proof.
  intros w e s W E. unfold preceded, bind, space0, take_while. rewrite (span_blank w e s W E). destruct E as [-> | ->]; reflexivity.
Qed.
Lemma go_more : forall A (p : parser A), eats false p -> forall n n' s, len s < n -> len s < n' -> many0_go n p s = many0_go n' p s.
Proof.
  intros A p H n. induction n as [|n IH]; intros n' s L L'; [ll|]. destruct n' as [|n']; [ll|]. cbn [many0_go].
  destruct (p s) as [r a| |] eqn:E; try reflexivity. apply (eats_len _ _ _ _ _ _ H) in E. destruct (Nat.eqb_spec (len r) (len s)); [reflexivity|].
  now rewrite (IH n' r) by ll.
Qed.
Lemma many0_step : forall A (p : parser A), eats false p -> forall s0 s a, p s0 = Ok s a -> len s < len s0 ->
  many0 p s0 = match many0 p s with Ok r l => Ok r (a :: l) | x => x end.
Proof.
  intros A p X s0 s a E L. unfold many0 at 1. cbn [many0_go]. rewrite E. neq. rewrite (go_more _ _ X _ (S (len s)) s) by ll. reflexivity.
Qed.
Lemma empty_blank : forall w e s, (forall c, In c w -> c = 32%N \/ c = 9%N) -> e = [10%N] \/ e = [13%N; 10%N] ->
  many_empty_lines0 (w ++ e ++ s) = match many_empty_lines0 s with Ok r l => Ok r (e :: l) | Err => Err | Oof => Oof end.
Proof.
  intros w e s W E. assert (X : eats false (preceded space0 eof_or_eol)) by eats. unfold many_empty_lines0 at 1.
  rewrite (many0_step _ _ X _ s e (line_blank w e s W E)) by (rewrite !app_length; destruct E as [-> | ->]; cbn; ll).
  unfold many_empty_lines0. now destruct (many0 (preceded space0 eof_or_eol) s).
Qed.
Lemma block_blank : forall cfg rec w e s, (forall c, In c w -> c = 32%N \/ c = 9%N) -> e = [10%N] \/ e = [13%N; 10%N] ->
  p_block cfg rec (w ++ e ++ s) = p_block cfg rec s.
Proof.
  intros cfg rec w e s W E. unfold p_block, preceded, bind. rewrite (empty_blank w e s W E). now destruct (many_empty_lines0 s).
Qed.
Definition rests {A} (x : res A) : option (option str) := match x with Ok r _ => Some (Some r) | Err => Some None | Oof => None end.
Lemma space_step : forall (p : parser str), eats false p -> forall x s a, p (x ++ s) = Ok s a -> x <> [] -> rests (many0 p (x ++ s)) = rests (many0 p s).
Proof.
  intros p X x s a E N. rewrite (many0_step _ _ X _ s a E) by (rewrite !app_length; destruct x; [easy|]; cbn; ll). now destruct (many0 p s).
Qed.
Lemma spaces_blank : forall w e s, (forall c, In c w -> c = 32%N \/ c = 9%N) -> e = [10%N] \/ e = [13%N; 10%N] ->
  rests (many0 (alt [space1; line_ending]) (w ++ e ++ s)) = rests (many0 (alt [space1; line_ending]) s).
Proof.
  intros w e s W E. assert (X : eats false (alt [space1; line_ending])) by eats.
  transitivity (rests (many0 (alt [space1; line_ending]) (e ++ s))).
  - destruct w as [|c w]; [reflexivity|]. apply (space_step _ X (c :: w) (e ++ s) (c :: w)); [|discriminate].
    pose proof (span_blank (c :: w) e s W E) as Sp. cbn [alt]. unfold or_else, space1, take_while1. unfold char, str in *. now rewrite Sp.
  - apply (space_step _ X e s e); destruct E as [-> | ->]; try discriminate; reflexivity.
Qed.
Lemma line_document : forall cfg w e s, custom_ok cfg -> (forall c, In c w -> c = 32%N \/ c = 9%N) -> e = [10%N] \/ e = [13%N; 10%N] ->
  parse_markdown cfg (w ++ e ++ s) = parse_markdown cfg s.
Proof.
  intros cfg w e s Hc W E. assert (L : len s < len (w ++ e ++ s)) by (rewrite !app_length; destruct E as [-> | ->]; cbn; ll).
  rewrite <- (document_fuel cfg Hc (S (len (w ++ e ++ s))) (w ++ e ++ s)) by ll. rewrite <- (document_fuel cfg Hc (S (len (w ++ e ++ s))) s) by ll.
  set (n := len (w ++ e ++ s)) in *. pose proof (eats_block_f cfg Hc (S n)) as X.
  assert (B : block_f cfg (S n) (w ++ e ++ s) = block_f cfg (S n) s) by (apply block_blank; assumption).
  unfold p_document, pmap, terminated, value, pmap, pair_, pmap, bind.
  assert (M : many0 (block_f cfg (S n)) (w ++ e ++ s) = match many0 (block_f cfg (S n)) s with
     | Ok r [] => Ok (w ++ e ++ s) [] | y => y end).
  { destruct (block_f cfg (S n) s) as [r a| |] eqn:Eb.
    - pose proof (eats_lt _ _ _ _ _ X Eb). rewrite (many0_step _ _ (eats_weaken _ _ _ X) _ r a B) by ll. rewrite (many0_step _ _ (eats_weaken _ _ _ X) _ r a Eb) by ll.
      now destruct (many0 (block_f cfg (S n)) r).
    - unfold many0. cbn [many0_go]. now rewrite B, Eb.
    - unfold many0. cbn [many0_go]. now rewrite B, Eb. }
  rewrite M. clear M. destruct (many0 (block_f cfg (S n)) s) as [r l| |] eqn:Em; try reflexivity. destruct l as [|b l]; [|reflexivity].
  assert (Hr : r = s). { unfold many0 in Em. cbn [many0_go] in Em. destruct (block_f cfg (S n) s); try discriminate; [|congruence]. destruct (_ =? _); [discriminate|]. destruct (many0_go _ _ _); discriminate. }
  subst r. pose proof (spaces_blank w e s W E) as R. unfold rests in R.
  destruct (many0 (alt [space1; line_ending]) (w ++ e ++ s)), (many0 (alt [space1; line_ending]) s); try discriminate; try reflexivity. injection R as ->. now destruct (eof rest0).
Qed.
Theorem C81_leading_blank_lines : forall cfg w s, custom_ok cfg -> blank_lines w -> parse_markdown cfg (w ++ s) = parse_markdown cfg s.
Proof.
  intros cfg w s Hc H. induction H as [|w e r W E _ IH]; [reflexivity|]. rewrite <- !app_assoc. now rewrite line_document.
Qed.
Print Assumptions C81_leading_blank_lines.
Example C81_example : blank_lines (lit "  " ++ [13%N; 10%N] ++ [10%N] ++ [9%N; 10%N]) /\
  let cfg := default_config (fun _ => None) (fun _ => false) (fun c => [c]) in
  parse_markdown cfg ((lit "  " ++ [13%N; 10%N] ++ [10%N] ++ [9%N; 10%N]) ++ lit "# a") = Ok [] (Document [BHeading (Heading (Atx 1) [IText (lit "a")])]).
Proof.
  split; [|vm_compute; reflexivity].
  apply (bl_line (lit "  ") [13%N; 10%N]); [intros c [<-|[<-|[]]]; now left|now right|].
  apply (bl_line [] [10%N]); [intros c []|now left|]. apply (bl_line [9%N] [10%N] []); [intros c [<-|[]]; now right|now left|]. apply bl_nil.
Qed.
