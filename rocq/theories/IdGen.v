(** Histories of an [IdGenerator] and of an [IdAssignmentVisitor]:
    /repo/src/ast_specialized/element_id.rs, utilities.rs. *)
From Verif Require Export GenericFacts SpecAst.
Import ListNotations.

(** ** Model *)
(** element_id.rs:53-57: the generator is its [next_id].
    element_id.rs:60-63 [new], 65-68 [starting_from] *)
Definition id_generator := N.
Definition gen_new : id_generator := 1%N.
Definition gen_starting_from (start : N) : id_generator := start.
(** element_id.rs:70-86: the three methods of the generator *)
Inductive gen_call := Generate | Peek | Reset.
(** The effect of a call: what it returns ([reset] returns nothing) and the new
    state; [None] is the panic of the overflowing increment. *)
Definition gen_step (c : gen_call) (g : id_generator) : option (option N * id_generator) :=
  match c with
  | Generate => match generate tt g with Some (id, g') => Some (Some id, g') | None => None end
  | Peek => Some (Some g, g)
  | Reset => Some (None, gen_new)
  end.
Fixpoint gen_run (cs : list gen_call) (g : id_generator) : option (list (option N) * id_generator) :=
  match cs with
  | [] => Some ([], g)
  | c :: cs' =>
      match gen_step c g with
      | Some (o, g1) => match gen_run cs' g1 with Some (os, g2) => Some (o :: os, g2) | None => None end
      | None => None
      end
  end.
(** utilities.rs:53-81 [IdAssignmentVisitor]: one visitor, used for one document
    after the other *)
Fixpoint visit_documents {T} (ds : list (gdocument T)) (g : id_generator) : option (list (gdocument N) * id_generator) :=
  match ds with
  | [] => Some ([], g)
  | d :: ds' =>
      match md_document generate d g with
      | Some (d', g1) => match visit_documents ds' g1 with Some (r, g2) => Some (d' :: r, g2) | None => None end
      | None => None
      end
  end.

(** ** Specification *)
(** the calls behind the last [reset], if there is one *)
Fixpoint since_reset (cs : list gen_call) : option (list gen_call) :=
  match cs with
  | [] => None
  | c :: cs' => match since_reset cs', c with Some r, _ => Some r | None, Reset => Some cs' | None, _ => None end
  end.
Definition generated (cs : list gen_call) : nat := length (filter (fun c => match c with Generate => true | _ => false end) cs).
(** the identifier that is due after a history: the start, or 1 behind a
    reset, plus one for every [generate] since *)
Definition due (start : N) (cs : list gen_call) : N :=
  match since_reset cs with
  | Some r => (1 + N.of_nat (generated r))%N
  | None => (start + N.of_nat (generated cs))%N
  end.

(** ** Facts *)
Lemma gen_run_app a b g : gen_run (a ++ b) g =
  match gen_run a g with
  | Some (os, g1) => match gen_run b g1 with Some (os', g2) => Some (os ++ os', g2) | None => None end
  | None => None
  end.
Proof.
  revert g. induction a as [|c a IH]; intros g; cbn [app gen_run].
  - destruct (gen_run b g) as [[? ?]|]; reflexivity.
  - destruct (gen_step c g) as [[o g1]|]; [|reflexivity]. rewrite IH. destruct (gen_run a g1) as [[os g2]|]; [|reflexivity].
    destruct (gen_run b g2) as [[os' g3]|]; reflexivity.
Qed.
Lemma since_app cs c : since_reset (cs ++ [c]) =
  match c with Reset => Some [] | _ => match since_reset cs with Some r => Some (r ++ [c]) | None => None end end.
Proof.
  induction cs as [|x cs IH]; cbn [app since_reset]; [now destruct c|]. rewrite IH. destruct c.
  - destruct (since_reset cs) as [r|]; [reflexivity|]. now destruct x.
  - destruct (since_reset cs) as [r|]; [reflexivity|]. now destruct x.
  - reflexivity.
Qed.
Lemma generated_app a b : generated (a ++ b) = generated a + generated b.
Proof. unfold generated. now rewrite filter_app, app_length. Qed.
Lemma due_app start cs c : due start (cs ++ [c]) =
  match c with Generate => (due start cs + 1)%N | Peek => due start cs | Reset => 1%N end.
Proof.
  unfold due. rewrite since_app. destruct c.
  - destruct (since_reset cs) as [r|]; rewrite generated_app; change (generated [Generate]) with 1; lia.
  - destruct (since_reset cs) as [r|]; rewrite generated_app; change (generated [Peek]) with 0; now rewrite Nat.add_0_r.
  - reflexivity.
Qed.
(** the state after any history that does not panic *)
Lemma gen_run_due start cs os g : gen_run cs (gen_starting_from start) = Some (os, g) -> g = due start cs.
Proof.
  revert os g. induction cs as [|c cs IH] using rev_ind; intros os g H.
  - cbn in H. injection H as _ <-. unfold gen_starting_from, due. cbn. lia.
  - rewrite gen_run_app in H. destruct (gen_run cs _) as [[os1 g1]|] eqn:E; [|discriminate]. specialize (IH _ _ eq_refl). subst g1.
    cbn [gen_run] in H. rewrite due_app. unfold gen_step, generate in H. destruct c.
    + destruct (_ <? _)%N; [|discriminate]. now injection H as _ <-.
    + now injection H as _ <-.
    + now injection H as _ <-.
Qed.
Lemma visit_documents_ids {T} (ds : list (gdocument T)) : forall g,
  let n := length (flat_map (@data_document T) ds) in
  (g + N.of_nat n <= u64_max)%N ->
  exists ds', visit_documents ds g = Some (ds', (g + N.of_nat n)%N) /\ map (@strip_data N) ds' = map (@strip_data T) ds /\
              flat_map (@data_document N) ds' = count_up g n.
Proof.
  induction ds as [|d ds IH]; intros g n H.
  - exists []. cbn. split; [|auto]. do 2 f_equal. subst n. cbn. lia.
  - subst n. cbn [flat_map] in *. rewrite app_length in *. cbn [visit_documents].
    pose proof (md_document_visits generate d g) as V. rewrite call_all_generate in V by (left; apply data_document_nonempty).
    match type of V with context [if ?x then _ else _] => destruct x eqn:E end; [|apply N.leb_gt in E; lia].
    destruct (md_document generate d g) as [[d' g1]|]; [|discriminate]. destruct V as [V S]. injection V as V <-.
    destruct (IH (g + N.of_nat (length (data_document d)))%N) as (ds' & E1 & E2 & E3); [lia|]. rewrite E1. exists (d' :: ds'). split; [do 2 f_equal; lia|].
    split; [cbn [map]; now rewrite S, E2|]. cbn [flat_map]. rewrite E3, <- V. clear.
    revert g. induction (length (data_document d)) as [|k IH]; intros g; cbn [count_up app Nat.add]; [f_equal; lia|]. f_equal. rewrite <- IH. do 2 f_equal. lia.
Qed.
