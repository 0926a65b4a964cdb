(** C80: Windows line endings. *)
From Coq Require Import String Lia List.
From Verif Require Import SpecEol Nom ParserInlineFacts ParserBlock ParserBlockFacts EolFacts EolBlocks.
Import ListNotations.
Open Scope list_scope.

Lemma eol_pair' : forall a a', eol a a' -> has_colon_after_bracket a -> has_colon_after_bracket a'.
Proof.
  intros a a' H. induction H as [|x s s' N H IH|s s' H IH]; intros (u & v & E).
  - destruct u; discriminate E.
  - destruct u as [|y u]; cbn in E.
    + injection E as -> E. subst s. inversion H; subst. exists [], s'0. reflexivity.
    + injection E as -> E. destruct IH as (u1 & v1 & ->); [now exists u, v|]. now exists (y :: u1), v1.
  - destruct u as [|y u]; cbn in E; [discriminate E|]. injection E as <- E. destruct IH as (u1 & v1 & ->); [now exists u, v|]. now exists (13%N :: 10%N :: u1), v1.
Qed.
Lemma document_rest : forall cfg s r d, parse_markdown cfg s = Ok r d -> r = [].
Proof.
  intros cfg s r d H. unfold parse_markdown, p_document, pmap, terminated, value, pmap, pair_, pmap, bind in H.
  destruct (many0 _ s) as [m bs| |]; try discriminate. destruct (many0 _ m) as [q x| |]; try discriminate.
  destruct q; [|discriminate]. cbn in H. now injection H as <- _.
Qed.
(** Replacing CR LF by LF (all of them, in a source that may mix both) does not
    change the document, unless the source can hold an HTML block or a definition:
    html blocks are off or there is no "<" in front of a letter, "/", "!" or "?";
    definitions are off or there is no "]:". *)
Theorem C80_line_endings_partial : forall cfg s,
  custom_ok cfg -> custom_block cfg = None -> no_lone_cr s ->
  b_html_block cfg = Ignore \/ ~ opens_tag s ->
  (b_link_definition cfg = Ignore /\ b_footnote_definition cfg = Ignore) \/ ~ has_colon_after_bracket s ->
  parse_markdown cfg s = parse_markdown cfg (unix s).
Proof.
  intros cfg s Hc Hb N Hh Hd. pose proof (eol_unix s N) as E.
  assert (F : fine (html_on cfg) (defs_on cfg) (unix s)).
  { split; unfold html_on, defs_on.
    - intros On J. destruct Hh as [Hh|Hh]; [contradiction|]. apply Hh. now apply (tag_eol _ _ E).
    - intros On J. destruct Hd as [[H1 H2]|Hd]; [destruct On; contradiction|]. apply Hd. now apply (eol_pair' _ _ E). }
  pose proof (eol_same cfg Hb Hc _ _ E F) as X.
  destruct (parse_markdown cfg (unix s)) as [r d| |] eqn:E1, (parse_markdown cfg s) as [r' d'| |] eqn:E2; try contradiction; try reflexivity.
  apply document_rest in E1, E2. now subst.
Qed.
Print Assumptions C80_line_endings_partial.
(** so sources that differ only in their line endings read alike *)
Theorem C80_same_lines_partial : forall cfg s s',
  custom_ok cfg -> custom_block cfg = None -> no_lone_cr s -> no_lone_cr s' -> unix s = unix s' ->
  b_html_block cfg = Ignore \/ (~ opens_tag s /\ ~ opens_tag s') ->
  (b_link_definition cfg = Ignore /\ b_footnote_definition cfg = Ignore) \/ (~ has_colon_after_bracket s /\ ~ has_colon_after_bracket s') ->
  parse_markdown cfg s = parse_markdown cfg s'.
Proof.
  intros cfg s s' Hc Hb N N' U Hh Hd. rewrite (C80_line_endings_partial cfg s), (C80_line_endings_partial cfg s'); try assumption; [now rewrite U|tauto..].
Qed.
Print Assumptions C80_same_lines_partial.

Definition dos (s : str) : str := flat_map (fun c => if N.eqb c 10 then [13%N; 10%N] else [c]) s.
Definition plain_cfg : config := default_config (fun _ => None) (fun _ => false) (fun c => [c]).
Definition eol_sample : str := dos (lit "# A") ++ dos [10%N] ++ lit "* x < 1" ++ [13%N; 10%N] ++ lit "  y" ++ [10%N; 13%N; 10%N] ++ lit "> q" ++ [13%N; 10%N] ++ lit "> r [l](u)".
Fixpoint untagged (s : str) : bool :=
  match s with
  | x :: (c :: _) as s' => negb (N.eqb x 60 && (is_alpha c || existsb (N.eqb c) (lit "/!?"))) && untagged s'
  | _ => true
  end.
Lemma untagged_ok : forall s, untagged s = true -> ~ opens_tag s.
Proof.
  intros s H (a & c & b & -> & P). induction a as [|x a IH].
  - cbn [app untagged] in H. apply andb_prop in H as [H _]. cbn [N.eqb ch] in H. apply Bool.negb_true_iff in H. destruct P as [P|P]; [rewrite P in H; discriminate H|].
    cbn in P. destruct P as [<-|[<-|[<-|[]]]]; discriminate H.
  - apply IH. destruct a as [|y a]; cbn [app untagged] in *; apply andb_prop in H; tauto.
Qed.
Example C80_example : no_lone_cr eol_sample /\ ~ opens_tag eol_sample /\ eol_sample <> unix eol_sample /\
  parse_markdown plain_cfg eol_sample = parse_markdown plain_cfg (unix eol_sample) /\
  parse_markdown plain_cfg (unix eol_sample) =
    Ok [] (Document [BHeading (Heading (Atx 1) [IText (lit "A")]);
                     BList (MkList (Bullet Star) [ListItem None [BParagraph [IText (lit "x < 1" ++ [10%N] ++ lit "y")]]]);
                     BBlockQuote [BParagraph [IText (lit "q" ++ [10%N] ++ lit "r "); ILink (Link (lit "u") None [IText (lit "l")])]]]).
Proof.
  split; [|split; [|split; [|split]]].
  - unfold no_lone_cr. vm_compute. intros H. repeat (destruct H as [H|H]; [discriminate H|]). exact H.
  - apply untagged_ok. vm_compute. reflexivity.
  - discriminate.
  - vm_compute. reflexivity.
  - vm_compute. reflexivity.
Qed.
(** without the side conditions the claim is false: HTML blocks, labels and titles
    of definitions, and labels of footnotes keep the line endings of the source,
    and an attribute value that is a line ending is recognised with LF only *)
Theorem C80_html_refuted : exists s, no_lone_cr s /\ parse_markdown plain_cfg s <> parse_markdown plain_cfg (unix s).
Proof.
  exists (dos (lit "<div>" ++ [10%N] ++ lit "</div>")). split; [|vm_compute; discriminate].
  unfold no_lone_cr. vm_compute. intros H. repeat (destruct H as [H|H]; [discriminate H|]). exact H.
Qed.
Print Assumptions C80_html_refuted.
Theorem C80_definition_refuted :
  (exists s, no_lone_cr s /\ ~ In (ch "<") s /\ parse_markdown plain_cfg s <> parse_markdown plain_cfg (unix s) /\
     exists d, parse_markdown plain_cfg (unix s) = Ok [] (Document [BDefinition d])) /\
  (exists s, no_lone_cr s /\ ~ In (ch "<") s /\ parse_markdown plain_cfg s <> parse_markdown plain_cfg (unix s) /\
     exists d, parse_markdown plain_cfg (unix s) = Ok [] (Document [BFootnoteDefinition d])).
Proof.
  split.
  - exists (dos (lit "[a" ++ [10%N] ++ lit "b]: u")). split; [|split; [|split]]; [| |vm_compute; discriminate|eexists; vm_compute; reflexivity].
    + unfold no_lone_cr. vm_compute. intros H. repeat (destruct H as [H|H]; [discriminate H|]). exact H.
    + vm_compute. intros H. repeat (destruct H as [H|H]; [discriminate H|]). exact H.
  - exists (dos (lit "[^a" ++ [10%N] ++ lit "b]: u")). split; [|split; [|split]]; [| |vm_compute; discriminate|eexists; vm_compute; reflexivity].
    + unfold no_lone_cr. vm_compute. intros H. repeat (destruct H as [H|H]; [discriminate H|]). exact H.
    + vm_compute. intros H. repeat (destruct H as [H|H]; [discriminate H|]). exact H.
Qed.
Print Assumptions C80_definition_refuted.
