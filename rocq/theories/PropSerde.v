(** C78, C79: serialisation of the syntax trees (feature ast-serde). *)
From Coq Require Import String Permutation List.
From Coq Require Import NArith Lia.
From Verif Require Import SpecSerde SerdeFacts PropAst.
Import ListNotations.
Open Scope list_scope.

Lemma nothing_gone : forall k : str, False -> k = lit "user_data".
Proof. intros k []. Qed.
(** ** C78: what is written is read back, in whatever order a format keeps the
    fields of an object *)
Theorem C78_plain : forall d j, machine_numbers d -> reordered (s_document d) j -> r_document j = Some d.
Proof. intros d j M H. apply (reads_document _ nothing_gone d M j H). Qed.
Print Assumptions C78_plain.
Theorem C78_plain_nodes : forall j,
  (forall i, reordered (s_inline i) j -> r_inline j = Some i) /\
  (forall b, (forall b', In b' (block_preorder b) -> machine_number b') -> reordered (s_block b) j -> r_block j = Some b).
Proof.
  intro j. split; [intros i H; apply (reads_inline _ nothing_gone i j H)|].
  intros b M H. apply (reads_block _ nothing_gone b M j H).
Qed.
Print Assumptions C78_plain_nodes.
(** [T]: any type; its values in the tree must be read back *)
Theorem C78_generic : forall T (s_data : T -> json) (r_data : json -> option T) (dflt : T) g j,
  (forall t, In t (data_document g) -> forall j', reordered (s_data t) j' -> r_data j' = Some t) ->
  machine_numbers (strip_data g) -> reordered (s_gdocument s_data g) j -> r_gdocument r_data dflt j = Some g.
Proof.
  intros T sd rd dflt g j C M H.
  rewrite (reads_gdocument _ nothing_gone sd rd dflt (fun t => t) (fun t => In t (data_document g)) (or_introl (conj (fun x : False => x) C)) g M (fun t I => I) j H).
  destruct g as [bs d]. cbn. f_equal. f_equal. apply map_same. apply Forall_forall. intros b _. apply gm_block_id.
Qed.
Print Assumptions C78_generic.
(** trees with identifiers ([ElementId] is written as its number) *)
Theorem C78_ids : forall d g j, machine_numbers d -> add_ids_to_document d = Some g ->
  reordered (s_gdocument JNum g) j -> forall dflt, r_gdocument (r_num u64_max) dflt j = Some g.
Proof.
  intros d g j M A H dflt. pose proof (C04_add_ids_to_document d) as C. cbv zeta in C.
  match type of C with if (?x <=? _)%N then _ else _ => destruct (N.leb_spec x u64_max) as [L|L] end; [|congruence].
  destruct C as (g' & E & St & Da). rewrite A in E. injection E as <-.
  apply (C78_generic N JNum (r_num u64_max) dflt g j); [|now rewrite St|exact H].
  intros t I j' R. rewrite Da in I. apply C04_ids_range in I. inversion R; subst. cbn. destruct (N.leb_spec t u64_max); [reflexivity|lia].
Qed.
Print Assumptions C78_ids.
Lemma reorder_refl : forall j, reordered j j.
Proof.
  fix IH 1. intros [|b|n|s|l|fs].
  - apply rw_null.
  - apply rw_bool.
  - apply rw_num.
  - apply rw_str.
  - apply rw_arr. induction l as [|x l IHl]; [apply Forall2_nil|apply Forall2_cons; [apply IH|apply IHl]].
  - apply (rw_obj _ fs fs); [|apply Permutation_refl].
    induction fs as [|[k v] fs IHf]; [apply rf_nil|apply rf_keep; [intros []|apply IH|apply IHf]].
Qed.
(** so different documents have different serialisations *)
Theorem C78_injective : forall d d', machine_numbers d -> machine_numbers d' -> reordered (s_document d) (s_document d') -> d = d'.
Proof.
  intros d d' M M' H. pose proof (C78_plain d _ M H) as E. rewrite (C78_plain d' _ M' (reorder_refl _)) in E. now injection E.
Qed.
Print Assumptions C78_injective.

Definition serde_sample : document :=
  Document [BHeading (Heading (Atx 2) [IText (lit "a")]);
            BList (MkList (Ordered 7) [ListItem (Some Complete) [BParagraph [ILink (Link (lit "u") None [ICode (lit "c")]); ILineBreak]]]);
            BTable (Table [[[IText (lit "h")]]] [ACenter]); BCodeBlock (CodeBlock (Fenced None) (lit "x")); BThematicBreak].
Example C78_example : machine_numbers serde_sample /\ r_document (s_document serde_sample) = Some serde_sample /\
  s_document (Document [BThematicBreak; BParagraph [IText (lit "a")]]) =
    JObj [(lit "blocks", JArr [JStr (lit "ThematicBreak"); JObj [(lit "Paragraph", JArr [JObj [(lit "Text", JStr (lit "a"))]])]])] /\
  (** fields in another order *)
  r_block (JObj [(lit "CodeBlock", JObj [(lit "literal", JStr (lit "x")); (lit "kind", JStr (lit "Indented"))])]) = Some (BCodeBlock (CodeBlock Indented (lit "x"))) /\
  (** a value that is no u8 *)
  r_block (JObj [(lit "Heading", JObj [(lit "kind", JObj [(lit "Atx", JNum 256)]); (lit "content", JArr [])])]) = None.
Proof.
  split; [|repeat split].
  intros b I. cbn in I. repeat (destruct I as [<-|I]; [first [reflexivity | exact Logic.I]|]). destruct I.
Qed.

(** ** C79: "user_data" may be left out everywhere; it is then [T::default()].
    So the JSON of a tree with user data, without them, is read as the tree that
    attaches the default to every node. *)
Theorem C79_user_data_optional : forall T (s_data : T -> json) (r_data : json -> option T) (dflt : T) g j,
  machine_numbers (strip_data g) -> without_user_data (s_gdocument s_data g) j ->
  r_gdocument r_data dflt j = Some (with_default_data dflt (strip_data g)).
Proof.
  intros T sd rd dflt g j M H.
  rewrite (reads_gdocument _ (fun k E => E) sd rd dflt (fun _ => dflt) (fun _ => True) (or_intror (conj eq_refl (fun _ => eq_refl))) g M (fun _ _ => I) j H).
  destruct g as [bs d]. unfold with_default_data, with_data, strip_data. cbn. f_equal. f_equal. rewrite map_map. apply map_pair. apply Forall_forall. intros b _. apply gm_block_const.
Qed.
Print Assumptions C79_user_data_optional.
Definition g_sample : gdocument N :=
  GDocument [GBHeading (GHeading (Atx 1) [GIText (lit "a") 3%N] 2%N); GBThematicBreak 4%N] 1%N.
Definition j_sample : json :=
  JObj [(lit "blocks", JArr [JObj [(lit "Heading", JObj [(lit "kind", JObj [(lit "Atx", JNum 1)]);
          (lit "content", JArr [JObj [(lit "Text", JObj [(lit "content", JStr (lit "a"))])]])])];
        JObj [(lit "ThematicBreak", JObj [])]])].
Ltac rw1 := first
  [ apply rw_null | apply rw_bool | apply rw_num | apply rw_str | apply rw_arr; repeat (apply Forall2_cons; [rw1|]); apply Forall2_nil
  | eapply rw_obj; [repeat first [apply rf_nil | apply rf_keep; [discriminate|rw1|] | apply rf_drop; [reflexivity|]]|apply Permutation_refl] ].
Example C79_example : machine_numbers (strip_data g_sample) /\ without_user_data (s_gdocument JNum g_sample) j_sample /\
  r_gdocument (r_num u64_max) 9%N j_sample = Some (GDocument [GBHeading (GHeading (Atx 1) [GIText (lit "a") 9%N] 9%N); GBThematicBreak 9%N] 9%N).
Proof.
  split; [|split; [|reflexivity]].
  - intros b I. cbn in I. repeat (destruct I as [<-|I]; [first [reflexivity | exact Logic.I]|]). destruct I.
  - unfold without_user_data. cbn. rw1.
Qed.
Example C78_ids_example :
  match add_ids_to_document serde_sample with
  | Some g => r_gdocument (r_num u64_max) 0%N (s_gdocument JNum g) = Some g
  | None => False
  end.
Proof. vm_compute. reflexivity. Qed.
