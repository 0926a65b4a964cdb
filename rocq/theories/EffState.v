(** The state of the user's closures changes only when one of them is called. *)
From Coq Require Import String Lia.
From Verif Require Export EffSim.
Import ListNotations.
Open Scope list_scope.

Section Moves.
  Context {W : Type}.
  Variable rel : W -> W -> Prop.
  Hypothesis rrefl : forall w, rel w w.
  Hypothesis rtrans : forall a b c, rel a b -> rel b c -> rel a c.
  Definition moves {A} (p : eparser W A) : Prop := forall s w, rel w (snd (p s w)).
  Ltac cm H s w := let X := fresh "X" in
    pose proof (H s w) as X; revert X;
    match goal with |- rel _ (snd (?p s w)) -> _ => destruct (p s w) as [[? ?| |] ?] end;
    cbn [snd]; intro X.
  Lemma mv_lift : forall A (p : parser A), moves (lift p). Proof. intros A p s w. apply rrefl. Qed.
  Lemma mv_bind : forall A B (p : eparser W A) (f : A -> eparser W B), moves p -> (forall a, moves (f a)) -> moves (ebind p f).
  Proof. intros A B p f H Hf s w. unfold ebind. cm H s w; try exact X. eapply rtrans; [exact X|apply Hf]. Qed.
  Lemma mv_map : forall A B (f : A -> B) (p : eparser W A), moves p -> moves (emap f p).
  Proof. intros. apply mv_bind; [assumption|]. intro. apply mv_lift. Qed.
  Lemma mv_value : forall A B (v : B) (p : eparser W A), moves p -> moves (evalue v p).
  Proof. intros. now apply mv_map. Qed.
  Lemma mv_run : forall A B (f : A -> W -> B * W) (p : eparser W A), (forall a w, rel w (snd (f a w))) -> moves p -> moves (erun f p).
  Proof. intros A B f p Hf H. apply mv_bind; [exact H|]. intros a s w. specialize (Hf a w). destruct (f a w). exact Hf. Qed.
  Lemma mv_not : forall A (p : eparser W A), moves p -> moves (enot p).
  Proof. intros A p H s w. unfold enot. cm H s w; exact X. Qed.
  Lemma mv_peek : forall A (p : eparser W A), moves p -> moves (epeek p).
  Proof. intros A p H s w. unfold epeek. cm H s w; exact X. Qed.
  Lemma mv_recognize : forall A (p : eparser W A), moves p -> moves (erecognize p).
  Proof. intros A p H s w. unfold erecognize. cm H s w; exact X. Qed.
  Lemma mv_nested : forall A (p : eparser W A) c, moves p -> moves (enested p c).
  Proof. intros A p c H s w. unfold enested. cm H c w; exact X. Qed.
  Lemma mv_preceded : forall A B (p : eparser W A) (q : eparser W B), moves p -> moves q -> moves (epreceded p q).
  Proof. intros. now apply mv_bind. Qed.
  Lemma mv_terminated : forall A B (p : eparser W A) (q : eparser W B), moves p -> moves q -> moves (eterminated p q).
  Proof. intros. apply mv_bind; [assumption|]. intro. now apply mv_value. Qed.
  Lemma mv_delimited : forall A B C (p : eparser W A) (q : eparser W B) (t : eparser W C), moves p -> moves q -> moves t -> moves (edelimited p q t).
  Proof. intros. apply mv_preceded; [assumption|]. now apply mv_terminated. Qed.
  Lemma mv_or : forall A (p q : eparser W A), moves p -> moves q -> moves (eor_else p q).
  Proof. intros A p q H H' s w. unfold eor_else. cm H s w; try exact X. eapply rtrans; [exact X|apply H']. Qed.
  Lemma mv_alt : forall A (l : list (eparser W A)), Forall moves l -> moves (ealt l).
  Proof.
    induction 1 as [|p l H Hl IH]; [apply mv_lift|]. destruct Hl; [exact H|]. exact (mv_or _ _ _ H IH).
  Qed.
  Lemma mv_many0 : forall A (p : eparser W A), moves p -> moves (emany0 p).
  Proof.
    intros A p H s w. unfold emany0. generalize (S (List.length s)) as n. intros n. revert s w.
    induction n as [|n IH]; intros s w; [apply rrefl|]. cbn [emany0_go]. cm H s w; try exact X.
    destruct (_ =? _); [exact X|]. match goal with |- context [emany0_go n p ?r ?v] => pose proof (IH r v) as Y; destruct (emany0_go n p r v) as [[? ?| |] ?] end;
      cbn in *; eapply rtrans; eassumption.
  Qed.
  Lemma mv_many1 : forall A (p : eparser W A), moves p -> moves (emany1 p).
  Proof. intros. apply mv_bind; [assumption|]. intro. now apply mv_map, mv_many0. Qed.
  Lemma mv_sep_go : forall A B (sep : eparser W B) (p : eparser W A), moves sep -> moves p ->
    moves (fun s w => esep_go (S (List.length s)) sep p s w).
  Proof.
    intros A B sep p Hs H s w. generalize (S (List.length s)) as n. intros n. revert s w.
    induction n as [|n IH]; intros s w; [apply rrefl|]. cbn [esep_go]. cm Hs s w; try exact X.
    match goal with |- context [p ?r ?v] => pose proof (H r v) as Y; destruct (p r v) as [[? ?| |] ?]; cbn [snd] in Y end;
      try (cbn; eapply rtrans; eassumption).
    destruct (_ =? _); [cbn; eapply rtrans; eassumption|].
    match goal with |- context [esep_go n sep p ?r ?v] => pose proof (IH r v) as Z; destruct (esep_go n sep p r v) as [[? ?| |] ?] end;
      cbn in *; eapply rtrans; [exact X|eapply rtrans; eassumption|exact X|eapply rtrans; eassumption|exact X|eapply rtrans; eassumption].
  Qed.
  Lemma mv_sep1 : forall A B (sep : eparser W B) (p : eparser W A), moves sep -> moves p -> moves (eseparated_list1 sep p).
  Proof. intros. apply mv_bind; [assumption|]. intro. now apply mv_map, mv_sep_go. Qed.
  Lemma mv_sep0 : forall A B (sep : eparser W B) (p : eparser W A), moves sep -> moves p -> moves (eseparated_list0 sep p).
  Proof.
    intros A B sep p Hs H s w. unfold eseparated_list0. cm H s w; try exact X. eapply rtrans; [exact X|].
    now apply mv_map, mv_sep_go.
  Qed.

  (** every closure moves the state along [rel] *)
  Definition hook_moves {A} (b : ebehavior W A) : Prop :=
    match b with
    | EMap f => forall a w, rel w (snd (f a w))
    | EFlatMap f => forall a w, rel w (snd (f a w))
    | _ => True
    end.
  Definition custom_moves {A} (p : option (eparser W A)) : Prop := match p with Some p => moves p | None => True end.
  Definition config_moves (E : econfig W) : Prop :=
    (hook_moves (eb_blockquote E) /\ hook_moves (eb_github_alert E) /\ hook_moves (eb_heading_v1 E) /\ hook_moves (eb_heading_v2 E)
     /\ hook_moves (eb_thematic_break E) /\ hook_moves (eb_list E) /\ hook_moves (eb_code_block E) /\ hook_moves (eb_html_block E)
     /\ hook_moves (eb_footnote_definition E) /\ hook_moves (eb_link_definition E) /\ hook_moves (eb_table E) /\ hook_moves (eb_paragraph E))
    /\ (hook_moves (ei_autolink E) /\ hook_moves (ei_link E) /\ hook_moves (ei_footnote_reference E) /\ hook_moves (ei_reference_link E)
     /\ hook_moves (ei_hard_newline E) /\ hook_moves (ei_image E) /\ hook_moves (ei_code_span E) /\ hook_moves (ei_emphasis E)
     /\ hook_moves (ei_strikethrough E) /\ hook_moves (ei_text E))
    /\ custom_moves (e_custom_block E) /\ custom_moves (e_custom_inline E).
  Lemma mv_cond : forall A (b : ebehavior W A) d p, hook_moves b -> moves p -> moves (econditional b d p).
  Proof.
    intros A b d p H Hp. destruct b; cbn [econditional hook_moves] in *.
    - now apply mv_map.
    - apply mv_lift.
    - now apply mv_value.
    - now apply mv_map, mv_run.
    - now apply mv_run.
  Qed.
  Lemma mv_cond_unit : forall A (b : ebehavior W A) p, moves p -> moves (econditional_unit b p).
  Proof. intros A b p Hp. destruct b; try exact Hp. apply mv_lift. Qed.
  Lemma mv_cond_vec : forall (b : ebehavior W block) p, moves p -> moves (econditional_block_vec b p).
  Proof. intros b p Hp. destruct b; try exact Hp; [apply mv_lift|now apply mv_value]. Qed.
  Lemma mv_unit : forall A (p : eparser W A), moves p -> moves (ep_unit p).
  Proof. intros. now apply mv_value. Qed.
  Lemma mv_line : forall A (p : eparser W A), moves p -> moves (eline_terminated p).
  Proof. intros. apply mv_terminated; [assumption|apply mv_lift]. Qed.

  Variable E : econfig W.
  Hypothesis HE : config_moves E.
  Ltac mvs := repeat (first [assumption | match goal with
    | |- moves (lift _) => apply mv_lift
    | |- moves (eret _) => apply mv_lift
    | |- moves efail => apply mv_lift
    | |- moves (eline_terminated _) => apply mv_line
    | |- moves (ep_unit _) => apply mv_unit
    | |- moves (econditional_unit _ _) => apply mv_cond_unit
    | |- moves (econditional_block_vec _ _) => apply mv_cond_vec
    | |- moves (econditional _ _ _) => apply mv_cond; [assumption|]
    | |- moves (ealt _) => apply mv_alt; repeat apply Forall_cons; try apply Forall_nil
    | |- moves (emany0 _) => apply mv_many0
    | |- moves (emany1 _) => apply mv_many1
    | |- moves (eseparated_list0 _ _) => apply mv_sep0
    | |- moves (eseparated_list1 _ _) => apply mv_sep1
    | |- moves (enot _) => apply mv_not
    | |- moves (epeek _) => apply mv_peek
    | |- moves (erecognize _) => apply mv_recognize
    | |- moves (enested _ _) => apply mv_nested
    | |- moves (emap _ _) => apply mv_map
    | |- moves (evalue _ _) => apply mv_value
    | |- moves (edelimited _ _ _) => apply mv_delimited
    | |- moves (epreceded _ _) => apply mv_preceded
    | |- moves (eterminated _ _) => apply mv_terminated
    | |- moves (ebind _ _) => apply mv_bind; [|intro]
    end]).
  Section Inl.
    Variable r : eparser W (list inline).
    Hypothesis Hr : moves r.
    Lemma mv_label : moves (ep_link_label r). Proof. unfold ep_link_label. mvs. Qed.
    Lemma mv_link : moves (ep_inline_link r).
    Proof. pose proof mv_label. unfold ep_inline_link. mvs. match goal with x : _ * _ |- _ => destruct x end. mvs. Qed.
    Lemma mv_ref : moves (ep_reference_link r). Proof. pose proof mv_label. unfold ep_reference_link. mvs. Qed.
    Lemma mv_emphasis : moves (ep_emphasis E r). Proof. unfold ep_emphasis, ep_emph, ep_emphasis_content. mvs. Qed.
    Lemma mv_strike : moves (ep_strikethrough r). Proof. unfold ep_strikethrough. mvs. Qed.
    Lemma mv_custom_inline : moves (ep_custom_inline E).
    Proof. pose proof HE as HE'; unfold config_moves in HE'; decompose [and] HE'.  unfold ep_custom_inline; unfold custom_moves in *; destruct (e_custom_inline E); [assumption|apply mv_lift]. Qed.
    Lemma mv_not_text : moves (ep_not_a_text E r).
    Proof. pose proof mv_link. pose proof mv_ref. pose proof mv_emphasis. pose proof mv_strike. unfold ep_not_a_text. mvs. Qed.
    Lemma mv_text_run : moves (ep_text_run E r). Proof. pose proof mv_not_text. unfold ep_text_run. mvs. Qed.
    Lemma mv_text : moves (ep_text E r). Proof. pose proof mv_text_run. unfold ep_text. mvs. Qed.
    Lemma mv_inline : moves (ep_inline E r).
    Proof.
      pose proof mv_link. pose proof mv_ref. pose proof mv_emphasis. pose proof mv_strike. pose proof mv_text. pose proof mv_custom_inline.
      pose proof HE as HE'; unfold config_moves in HE'; decompose [and] HE'. unfold ep_inline, econditional_inline. mvs.
    Qed.
  End Inl.
  Lemma mv_inlines_f : forall n, moves (einline_many1_f E n).
  Proof. induction n as [|n IH]; [intros s w; apply rrefl|]. cbn [einline_many1_f]. apply mv_map, mv_many1, mv_inline, IH. Qed.
  Lemma mv_inlines1 : moves (einline_many1 E). Proof. intros s w. apply mv_inlines_f. Qed.
  Lemma mv_inlines0 : moves (einline_many0 E).
  Proof. intros s w. unfold einline_many0. apply mv_map, mv_many0, mv_inline, mv_inlines_f. Qed.
  Lemma mv_heading : moves (ep_heading_v1 E). Proof. pose proof mv_inlines0. unfold ep_heading_v1. mvs. Qed.
  Lemma mv_definition : moves (ep_link_definition E).
  Proof. pose proof (mv_label _ mv_inlines1). unfold ep_link_definition. mvs. Qed.
  Lemma mv_table : moves (ep_table E).
  Proof.
    pose proof mv_inlines0. assert (TR : moves (ep_table_row E)) by (unfold ep_table_row, ep_cell_content; mvs).
    unfold ep_table. mvs. match goal with |- moves (if ?c then _ else _) => destruct c end; mvs.
  Qed.
  Lemma mv_custom_block : moves (ep_custom_block E).
  Proof. pose proof HE as HE'; unfold config_moves in HE'; decompose [and] HE'. unfold ep_custom_block; unfold custom_moves in *; destruct (e_custom_block E); [assumption|apply mv_lift]. Qed.
  Section Blk.
    Variable r : eparser W (list block).
    Hypothesis Hr : moves r.
    Lemma mv_quote : moves (ep_blockquote r). Proof. unfold ep_blockquote. mvs. Qed.
    Lemma mv_alert : moves (ep_github_alert E r).
    Proof. unfold ep_github_alert. mvs. destruct (parse_alert_marker _ _); [|apply mv_lift]. mvs. destruct (join _ _); mvs. Qed.
    Lemma mv_item : moves (ep_list_item r).
    Proof. unfold ep_list_item. mvs. match goal with x : _ * _ * _ |- _ => destruct x as [[? ?] ?] end. mvs. Qed.
    Lemma mv_list : moves (ep_list r).
    Proof. pose proof mv_item. unfold ep_list. mvs. match goal with x : list (_ * _) |- _ => destruct x as [|[? ?] ?] end; mvs. Qed.
    Lemma mv_footnote : moves (ep_footnote_definition r).
    Proof. unfold ep_footnote_definition. mvs. match goal with x : _ * _ |- _ => destruct x end. mvs. Qed.
    Lemma mv_start : moves (ep_is_paragraph_line_start E r).
    Proof.
      pose proof mv_heading. pose proof mv_definition. pose proof mv_table. pose proof mv_custom_block. pose proof mv_quote. pose proof mv_item. pose proof mv_footnote.
      unfold ep_is_paragraph_line_start. mvs.
    Qed.
    Lemma mv_paragraph : forall b, moves (ep_paragraph E r b).
    Proof. intro b. pose proof mv_start. pose proof mv_inlines1. unfold ep_paragraph. mvs. Qed.
    Lemma mv_heading2 : moves (ep_heading_v2_or_paragraph E r).
    Proof. pose proof (mv_paragraph true). unfold ep_heading_v2_or_paragraph. mvs. Qed.
    Lemma mv_block : moves (ep_block E r).
    Proof.
      pose proof mv_heading. pose proof mv_definition. pose proof mv_table. pose proof mv_custom_block. pose proof mv_quote. pose proof mv_list. pose proof mv_footnote.
      pose proof mv_alert. pose proof mv_heading2. pose proof (mv_paragraph false).
      pose proof HE as HE'; unfold config_moves in HE'; decompose [and] HE'. unfold ep_block, econditional_block. mvs.
    Qed.
  End Blk.
  Lemma mv_block_f : forall n, moves (eblock_f E n).
  Proof. induction n as [|n IH]; [intros s w; apply rrefl|]. apply mv_block, IH. Qed.
  Lemma mv_parse : forall s, forall w, rel w (snd (eparse_markdown E s w)).
  Proof. intros s w. unfold eparse_markdown, ep_document. apply mv_map, mv_terminated; [apply mv_many0, mv_block_f|apply mv_lift]. Qed.
End Moves.
