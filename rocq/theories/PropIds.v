(** Properties C71, C72: identifiers over whole histories.  Specifications:
    [due] (IdGen.v: the start, or 1 behind a reset, plus the number of
    [generate]s since), [count_up] (start, start+1, ...), [data_document]
    (SpecAst.v: the data of all nodes). *)
From Coq Require Import List.
From Verif Require Import IdGen Sample.
Import ListNotations.

(** C71: whatever was called before, [generate] and [peek] return the
    identifier that is due. *)
Theorem C71_returns : forall start history call outputs g,
  gen_run (history ++ [call]) (gen_starting_from start) = Some (outputs, g) ->
  exists before, outputs = before ++ [match call with Reset => None | _ => Some (due start history) end] /\
    length before = length history /\ g = due start (history ++ [call]).
Proof.
  intros start cs c os g H. pose proof (gen_run_due _ _ _ _ H) as D. rewrite gen_run_app in H. destruct (gen_run cs _) as [[os1 g1]|] eqn:E; [|discriminate].
  pose proof (gen_run_due _ _ _ _ E) as D1. subst g1. exists os1. split; [|split; [|exact D]].
  - cbn [gen_run] in H. unfold gen_step, generate in H. destruct c; [destruct (_ <? _)%N; [|discriminate]|..]; now injection H as <- _.
  - clear H D. revert os1 E. generalize (due start cs), (gen_starting_from start). induction cs as [|x cs IH]; intros n s os1 E; cbn [gen_run] in E; [now injection E as <- _|].
    destruct (gen_step x s) as [[o s1]|]; [|discriminate]. destruct (gen_run cs s1) as [[os2 s2]|] eqn:E2; [|discriminate]. injection E as <- E. cbn [length]. f_equal. exact (IH s2 s1 os2 E2).
Qed.
Print Assumptions C71_returns.
(** It panics exactly when the last identifier that fits is due. *)
Theorem C71_panics : forall start history call outputs g,
  gen_run history (gen_starting_from start) = Some (outputs, g) ->
  (gen_run (history ++ [call]) (gen_starting_from start) = None <-> call = Generate /\ (u64_max <= due start history)%N).
Proof.
  intros start cs c os g H. rewrite gen_run_app, H. apply gen_run_due in H. subst g. cbn [gen_run]. unfold gen_step, generate.
  destruct c; [destruct (N.ltb_spec (due start cs) u64_max)|..]; (split; [intro X; try discriminate|intros [X Y]; try discriminate]); auto. lia.
Qed.
Print Assumptions C71_panics.
(** Without a reset the generated identifiers count up, so none is given twice. *)
Theorem C71_fresh : forall n start, (start + N.of_nat n <= u64_max)%N ->
  gen_run (repeat Generate n) (gen_starting_from start) = Some (map Some (count_up start n), (start + N.of_nat n)%N).
Proof.
  induction n as [|n IH]; intros start H; cbn [repeat gen_run]; [unfold gen_starting_from; cbn; now rewrite N.add_0_r|].
  unfold gen_step, generate, gen_starting_from in *. destruct (N.ltb_spec start u64_max); [|lia]. rewrite IH by lia. cbn [count_up map]. replace (start + 1 + N.of_nat n)%N with (start + N.of_nat (S n))%N by lia. reflexivity.
Qed.
Print Assumptions C71_fresh.
(** looking at the next identifier changes nothing *)
Theorem C71_peek : forall a b start outputs g,
  gen_run (a ++ b) (gen_starting_from start) = Some (outputs, g) ->
  exists before behind, outputs = before ++ behind /\ length before = length a /\
    gen_run (a ++ [Peek] ++ b) (gen_starting_from start) = Some (before ++ [Some (due start a)] ++ behind, g).
Proof.
  intros a b start os g H. rewrite gen_run_app in H. destruct (gen_run a _) as [[os1 g1]|] eqn:E; [|discriminate]. destruct (gen_run b g1) as [[os2 g2]|] eqn:E2; [|discriminate]. injection H as <- <-.
  exists os1, os2. split; [reflexivity|]. split.
  - destruct (C71_returns start a Peek (os1 ++ [Some g1]) g1) as (before & X & Y & _); [rewrite gen_run_app, E; reflexivity|]. apply app_inj_tail in X as [-> _]. exact Y.
  - rewrite gen_run_app, E. cbn [app gen_run gen_step]. rewrite E2. apply gen_run_due in E. now subst g1.
Qed.
Print Assumptions C71_peek.
Example C71_nonvacuous : gen_run [Generate; Peek; Generate; Reset; Peek; Generate; Generate] (gen_starting_from 7)
    = Some ([Some 7; Some 8; Some 8; None; Some 1; Some 1; Some 2]%N, 3%N)
  /\ due 7 [Generate; Peek; Generate] = 9%N /\ due 7 [Generate; Reset; Peek; Generate; Generate] = 3%N
  /\ gen_run [Peek; Generate] (gen_starting_from u64_max) = None.
Proof. repeat split. Qed.

(** C72: one visitor for several documents (of any data): each keeps its
    content and no two nodes of all of them share an identifier. *)
Theorem C72_one_visitor_many_documents : forall (T : Type) (ds : list (gdocument T)) start,
  let n := length (flat_map (@data_document T) ds) in
  (start + N.of_nat n <= u64_max)%N ->
  exists ds', visit_documents ds (gen_starting_from start) = Some (ds', (start + N.of_nat n)%N) /\
    map (@strip_data N) ds' = map (@strip_data T) ds /\
    flat_map (@data_document N) ds' = count_up start n /\ NoDup (flat_map (@data_document N) ds').
Proof.
  intros T ds start n H. destruct (visit_documents_ids ds start H) as (ds' & E1 & E2 & E3). exists ds'. repeat split; auto. rewrite E3. apply count_up_NoDup.
Qed.
Print Assumptions C72_one_visitor_many_documents.
Example C72_nonvacuous : let two := [to_generic sample; to_generic sample] in
  option_map (fun r => flat_map (@data_document N) (fst r)) (visit_documents two (gen_starting_from 5)) = Some (count_up 5 94).
Proof. vm_compute. reflexivity. Qed.
