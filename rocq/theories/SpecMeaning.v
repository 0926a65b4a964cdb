(** Specification for C105: what a source means. *)
From Verif Require Export Nom ParserConfig ParserBlock SpecHtml SpecFormat.

(** a line break among the characters displayed counts as a space *)
Definition settle_tok (t : tok) : tok :=
  match t with TChar c => TChar (if N.eqb c c_nl then c_sp else c) | _ => t end.
(** Two lists of tokens that differ only in the choice between spaces and line breaks. *)
Definition same_tokens (a b : list tok) : Prop := map settle_tok a = map settle_tok b.

(** Parsing a source and rendering the document. *)
Definition convert (cfg : config) (render : document -> option str) (source : str) : option str :=
  match parse_markdown cfg source with Ok _ d => render d | _ => None end.
