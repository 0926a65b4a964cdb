(** C86: the reader accepts exactly the JSON values that encode a document. *)
From Coq Require Import String List.
From Coq Require Import NArith Lia.
From Verif Require Import SpecEncode EncodeFacts PropSerde.
Import ListNotations.
Open Scope list_scope.

(** It returns [d] for the encodings of [d] and an error for everything else. *)
Theorem C86_document : forall j d, r_document j = Some d <-> encodes (v_document d) j.
Proof. intros j d. apply d_document. Qed.
Print Assumptions C86_document.
Theorem C86_nodes : forall j,
  (forall i, r_inline j = Some i <-> encodes (v_inline i) j) /\ (forall b, r_block j = Some b <-> encodes (v_block b) j).
Proof. intro j. split; [apply d_inline|apply d_block]. Qed.
Print Assumptions C86_nodes.
(** The same with user data of any type [T], read by [r_data], with default [dflt]. *)
Theorem C86_generic : forall T (r_data : json -> option T) (dflt : T) j g,
  r_gdocument r_data dflt j = Some g <->
  encodes (v_gdocument (fun t => VUser (fun x => r_data x = Some t) (t = dflt)) g) j.
Proof. intros T r_data dflt j g. apply (d_gdocument r_data dflt). Qed.
Print Assumptions C86_generic.
(** So no JSON value encodes two documents, *)
Theorem C86_unambiguous : forall j d d', encodes (v_document d) j -> encodes (v_document d') j -> d = d'.
Proof. intros j d d' H H'. apply C86_document in H, H'. congruence. Qed.
Print Assumptions C86_unambiguous.
(** an error means that it encodes none, *)
Theorem C86_rejected : forall j, r_document j = None <-> forall d, ~ encodes (v_document d) j.
Proof.
  intro j. split.
  - intros E d H. apply C86_document in H. congruence.
  - intro N. destruct (r_document j) as [d|] eqn:E; [|reflexivity]. apply C86_document in E. elim (N d E).
Qed.
Print Assumptions C86_rejected.
(** what is written encodes what it was written from, *)
Theorem C86_written : forall d j, machine_numbers d -> reordered (s_document d) j -> encodes (v_document d) j.
Proof. intros d j M R. apply C86_document. now apply C78_plain. Qed.
Print Assumptions C86_written.
(** and reading any accepted value and writing it again gives the same document. *)
Theorem C86_normal_form : forall j d, r_document j = Some d -> r_document (s_document d) = Some d.
Proof.
  intros j d H. apply C78_plain; [|apply reorder_refl]. apply C86_document in H. apply read_numbers in H. exact H.
Qed.
Print Assumptions C86_normal_form.

(** A heading as a row and in an object with an unknown field; a fence without
    "info"; the document as a row.  A repeated field, a row that is too long, a row
    without its option, a number that is no u8 are errors. *)
Example C86_example :
  let text := JArr [JObj [(lit "Text", JStr (lit "a"))]] in
  let atx n := JObj [(lit "Atx", JNum n)] in
  let doc b := JObj [(lit "blocks", JArr [JObj [b]])] in
  let h := Document [BHeading (Heading (Atx 2) [IText (lit "a")])] in
  r_document (doc (lit "Heading", JArr [atx 2%N; text])) = Some h /\
  r_document (doc (lit "Heading", JObj [(lit "content", text); (lit "x", JNull); (lit "kind", atx 2%N)])) = Some h /\
  r_document (JArr [JArr [JObj [(lit "Heading", JArr [atx 2%N; text])]]]) = Some h /\
  encodes (v_document h) (JArr [JArr [JObj [(lit "Heading", JArr [atx 2%N; text])]]]) /\
  r_document (doc (lit "CodeBlock", JArr [JObj [(lit "Fenced", JObj [])]; JStr []])) = Some (Document [BCodeBlock (CodeBlock (Fenced None) [])]) /\
  r_document (doc (lit "CodeBlock", JArr [JObj [(lit "Fenced", JArr [])]; JStr []])) = None /\
  r_document (doc (lit "Heading", JObj [(lit "content", text); (lit "content", text); (lit "kind", atx 2%N)])) = None /\
  r_document (doc (lit "Heading", JArr [atx 2%N; text; JNull])) = None /\
  r_document (doc (lit "Heading", JArr [atx 256%N; text])) = None /\
  r_gdocument (r_num u64_max) 7%N (JArr [JArr [JObj [(lit "ThematicBreak", JArr [])]; JObj [(lit "Empty", JArr [JNum 3%N])]]]) =
    Some (GDocument [GBThematicBreak 7%N; GBEmpty 3%N] 7%N).
Proof.
  cbv zeta. do 3 (split; [reflexivity|]). split; [|repeat split].
  apply C86_document. reflexivity.
Qed.
