(** C75, C76: custom parsers.  Specification: SpecCustom.v. *)
From Coq Require Import String List Lia.
From Verif Require Import SpecParser Nom NomFacts ParserInline ParserInlineFacts ParserBlock ParserTotal ConfigBuild SpecInline SpecBlock SpecCustom CustomFacts CustomText.
Import ListNotations.
Open Scope list_scope.

(** ** C75: custom parsers are local.  Only their answers on texts written with
    the characters of the document matter. *)
Theorem C75_local : forall c c' s, custom_ok c -> custom_ok c' -> i_text c <> Ignore -> b_paragraph c <> Ignore -> same_but_custom c c' ->
  (forall t, written_in s t -> answer (custom_block c) t = answer (custom_block c') t) ->
  (forall t, written_in s t -> answer (custom_inline c) t = answer (custom_inline c') t) ->
  parse_markdown c' s = parse_markdown c s.
Proof. exact local. Qed.
Print Assumptions C75_local.

(** A parser consumes something whenever it accepts, and terminates. *)
Definition well_behaved {A} (p : parser A) : Prop := eats true p /\ forall s, p s <> Oof.
(** A syntax that always contains the character [x] ... *)
Definition needs {A} (x : char) (p : parser A) : Prop := forall t, ~ In x t -> p t = Err.

Lemma ok_block : forall cfg p, custom_ok cfg -> well_behaved p -> custom_ok (with_custom_block_parser cfg p).
Proof. intros cfg p [A B] W. split; [exact A|]. intros q E. injection E as <-. exact W. Qed.
Lemma ok_inline : forall cfg p, custom_ok cfg -> well_behaved p -> custom_ok (with_custom_inline_parser cfg p).
Proof. intros cfg p [A B] W. split; [|exact B]. intros q E. injection E as <-. exact W. Qed.
Lemma not_in : forall x s t, x <> 10%N -> ~ In x s -> written_in s t -> ~ In x t.
Proof. intros x s t N NS W J. destruct (W x J); contradiction. Qed.

(** ... leaves documents without that character alone. *)
Theorem C75_trigger_inline : forall cfg p x s, custom_ok cfg -> i_text cfg <> Ignore -> b_paragraph cfg <> Ignore ->
  custom_inline cfg = None -> well_behaved p -> needs x p -> x <> 10%N -> ~ In x s ->
  parse_markdown (with_custom_inline_parser cfg p) s = parse_markdown cfg s.
Proof.
  intros cfg p x s Hc Ht Hp N W X NX NS. apply C75_local; auto.
  - now apply ok_inline.
  - destruct cfg. repeat split.
  - intros t Wt. rewrite N. cbn. symmetry. apply X. now apply (not_in x s).
Qed.
Print Assumptions C75_trigger_inline.
Theorem C75_trigger_block : forall cfg p x s, custom_ok cfg -> i_text cfg <> Ignore -> b_paragraph cfg <> Ignore ->
  custom_block cfg = None -> well_behaved p -> needs x p -> x <> 10%N -> ~ In x s ->
  parse_markdown (with_custom_block_parser cfg p) s = parse_markdown cfg s.
Proof.
  intros cfg p x s Hc Ht Hp N W X NX NS. apply C75_local; auto.
  - now apply ok_block.
  - destruct cfg. repeat split.
  - intros t Wt. rewrite N. cbn. symmetry. apply X. now apply (not_in x s).
Qed.
Print Assumptions C75_trigger_block.
(** A parser that rejects everything might as well not be there. *)
Theorem C75_rejecting : forall cfg b i s, custom_ok cfg -> i_text cfg <> Ignore -> b_paragraph cfg <> Ignore ->
  custom_block cfg = None -> custom_inline cfg = None -> (forall t, b t = Err) -> (forall t, i t = Err) ->
  parse_markdown (with_custom_inline_parser (with_custom_block_parser cfg b) i) s = parse_markdown cfg s.
Proof.
  intros cfg b i s Hc Ht Hp Nb Ni Hb Hi. apply C75_local; auto.
  - apply ok_inline; [apply ok_block; [assumption|]|]; (split; [intros t r a E; congruence|congruence]).
  - destruct cfg. repeat split.
  - intros t _. rewrite Nb. cbn. now rewrite Hb.
  - intros t _. rewrite Ni. cbn. now rewrite Hi.
Qed.
Print Assumptions C75_rejecting.

(** the parsers of the README: "@@" and "::note" *)
Definition at_at : parser (list inline) := fun s =>
  match s with
  | a :: b :: r => if (N.eqb a (ch "@") && N.eqb b (ch "@"))%bool then Ok r [IText (lit "custom-inline")] else Err
  | _ => Err
  end.
Definition note_block : parser (list block) := fun s =>
  match Nom.tag (lit "::note") s with Ok _ _ => Ok [] [BParagraph [IText (lit "This is a note block")]] | _ => Err end.
Lemma at_at_ok : well_behaved at_at.
Proof.
  split; intro s; destruct s as [|a [|b r]]; cbn [at_at]; try discriminate; destruct (_ && _)%bool; try discriminate.
  intros r' x E. injection E as <- _. exists [a; b]. split; [reflexivity|discriminate].
Qed.
Lemma at_at_needs : needs (ch "@") at_at.
Proof.
  intros t N. destruct t as [|a [|b r]]; try reflexivity. cbn [at_at]. destruct (N.eqb_spec a (ch "@")) as [->|]; [|reflexivity]. exfalso. apply N. now left.
Qed.
Lemma note_ok : well_behaved note_block.
Proof.
  split; intros s; unfold note_block; destruct (Nom.tag (lit "::note") s) as [m v| |] eqn:E; try discriminate.
  intros r x Y. destruct s as [|c s]; [discriminate E|]. injection Y as <- _. exists (c :: s). split; [now rewrite app_nil_r|discriminate].
Qed.
Example C75_nonvacuous :
  parse_markdown (with_custom_inline_parser (default_config (fun _ => None) (fun _ => false) (fun c => [c])) at_at) (lit "# a `b`") =
  parse_markdown (default_config (fun _ => None) (fun _ => false) (fun c => [c])) (lit "# a `b`") /\
  parse_markdown (with_custom_inline_parser (default_config (fun _ => None) (fun _ => false) (fun c => [c])) at_at) (lit "# @@") <>
  parse_markdown (default_config (fun _ => None) (fun _ => false) (fun c => [c])) (lit "# @@").
Proof.
  split; [|vm_compute; discriminate].
  apply (C75_trigger_inline _ _ (ch "@")); try discriminate; try reflexivity; [split; discriminate|apply at_at_ok|apply at_at_needs|].
  cbn. intuition discriminate.
Qed.

(** ** C76: "These parsers are executed before the built-in ones and can be used
    to support additional syntax or override behavior" (README).
    They cannot override: headings and autolinks, for instance, win against any
    custom parsers. *)
Section Order.
  Variables (entities : str -> option str) (punct : char -> bool) (upper : char -> str).
  Let def := default_config entities punct upper.
  Let custom b i := with_custom_inline_parser (with_custom_block_parser def b) i.
  Lemma custom_fine : forall b i, well_behaved b -> well_behaved i -> custom_ok (custom b i).
  Proof. intros b i B J. apply ok_inline; [|assumption]. apply ok_block; [split; discriminate|assumption]. Qed.

  Theorem C76_no_override_partial : forall b i u, well_behaved b -> well_behaved i -> uri u \/ email u -> ~ In 10%N u ->
    parse_markdown (custom b i) (lit "# <" ++ u ++ lit ">") = Ok [] (Document [BHeading (Heading (Atx 1) [IAutolink u])]).
  Proof.
    intros b i u B J U NL. change (lit "# <" ++ u ++ lit ">") with (lit "# " ++ (lit "<" ++ u ++ lit ">")).
    apply heading_doc; try reflexivity; try discriminate.
    - now apply custom_fine.
    - intros K. apply in_app_iff in K as [K|K]; [cbn in K; intuition discriminate|]. apply in_app_iff in K as [K|K]; [contradiction|cbn in K; intuition discriminate].
    - intros [t E]. discriminate E.
    - intros [t E]. discriminate E.
    - apply reads_autolink; [reflexivity|assumption].
  Qed.
  (** Inside a run of plain text a custom inline parser is not even asked: if it
      does not accept the whole text, the text stays as it is. *)
  Theorem C76_inside_text_partial : forall b i s, well_behaved b -> well_behaved i -> plain_text s -> s <> [] ->
    ~ In 10%N s -> ~ begins_with c_sp s -> ~ begins_with c_tab s -> i s = Err ->
    parse_markdown (custom b i) (lit "# " ++ s) = Ok [] (Document [BHeading (Heading (Atx 1) [IText s])]).
  Proof.
    intros b i s B J P N NL N1 N2 E. apply heading_doc; try reflexivity; try discriminate; try assumption; [now apply custom_fine|].
    apply reads_text; try assumption; [now apply custom_fine|reflexivity].
  Qed.
  (** At the beginning of a text it is asked before the text is read ... *)
  Theorem C76_at_start_partial : forall b i s x, well_behaved b -> well_behaved i -> plain_text s -> s <> [] ->
    ~ In 10%N s -> ~ begins_with c_sp s -> ~ begins_with c_tab s -> i s = Ok [] [x] ->
    parse_markdown (custom b i) (lit "# " ++ s) = Ok [] (Document [BHeading (Heading (Atx 1) [x])]).
  Proof.
    intros b i s x B J P N NL N1 N2 E. apply heading_doc; try reflexivity; try discriminate; try assumption; [now apply custom_fine|].
    apply reads_custom; try assumption; [now apply custom_fine|reflexivity].
  Qed.
  (** ... and a custom block parser before paragraphs. *)
  Theorem C76_block_at_start_partial : forall b i c t x, well_behaved b -> well_behaved i -> fresh c -> b (c :: t) = Ok [] [x] ->
    parse_markdown (custom b i) (c :: t) = Ok [] (Document [x]).
  Proof.
    intros b i c t x B J F E. apply custom_block_doc; try discriminate; try assumption. now apply custom_fine.
  Qed.
End Order.
Print Assumptions C76_no_override_partial.
Print Assumptions C76_inside_text_partial.
Print Assumptions C76_at_start_partial.
Print Assumptions C76_block_at_start_partial.

(** The README's sentence, read as "what a custom parser accepts is what the
    parser returns", fails for headings; so does the README's own "@@" syntax in
    the middle of a text. *)
Theorem C76_override_refuted : exists cfg b s x, custom_ok cfg /\ custom_block cfg = Some b /\ b s = Ok [] [x] /\
  forall d, parse_markdown cfg s = Ok [] d -> d_blocks d <> [x].
Proof.
  exists (with_custom_block_parser (default_config (fun _ => None) (fun _ => false) (fun c => [c]))
    (fun s => match s with [] => Err | _ => Ok [] [BThematicBreak] end)), (fun s => match s with [] => Err | _ => Ok [] [BThematicBreak] end), (lit "# a"), BThematicBreak.
  split; [|split; [reflexivity|split; [reflexivity|]]].
  - apply ok_block; [split; discriminate|]. split; intros [|c s]; try discriminate. intros r x E. injection E as <- _. exists (c :: s). split; [now rewrite app_nil_r|discriminate].
  - intros d E. vm_compute in E. injection E as <-. discriminate.
Qed.
Print Assumptions C76_override_refuted.
Theorem C76_mid_text_refuted : exists cfg i s t x, custom_ok cfg /\ custom_inline cfg = Some i /\ i t = Ok [] [x] /\
  parse_markdown cfg (s ++ t) = Ok [] (Document [BParagraph [IText (s ++ t)]]) /\
  parse_markdown cfg t = Ok [] (Document [BParagraph [x]]).
Proof.
  exists (with_custom_inline_parser (default_config (fun _ => None) (fun _ => false) (fun c => [c])) at_at), at_at, (lit "a "), (lit "@@"), (IText (lit "custom-inline")).
  split; [apply ok_inline; [split; discriminate|apply at_at_ok]|]. repeat split; vm_compute; reflexivity.
Qed.
Print Assumptions C76_mid_text_refuted.
Example C76_nonvacuous : plain_text (lit "a @@") /\ at_at (lit "a @@") = Err /\ fresh (ch ":") /\ uri (lit "ab:c") /\ well_behaved at_at /\ well_behaved note_block /\
  note_block (lit "::note") = Ok [] [BParagraph [IText (lit "This is a note block")]].
Proof.
  split; [|split; [reflexivity|split; [|split; [|split; [apply at_at_ok|split; [apply note_ok|reflexivity]]]]]].
  - split; [apply Forall_forall; intros c J; cbn in J; unfold plain_char; repeat (destruct J as [<-|J]; [cbn; intuition discriminate|]); destruct J|]. intros a b E. vm_compute in E. do 5 (destruct a as [|? a]; [discriminate E|try discriminate E; injection E as _ E]).
  - split; [reflexivity|]. cbn. intuition discriminate.
  - exists (ch "a"), (lit "b"), (lit "c"). repeat split; try discriminate; repeat constructor.
Qed.
