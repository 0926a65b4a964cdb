(** Specification vocabulary for stateful closures ([PropEffect.v]).

    A closure of a configuration is a function that is given an element (or,
    for a custom parser, the rest of the input) and the current state of the
    world, and gives an answer and a new state. *)
From Coq Require Import List.
From Verif Require Import EffParser.

(** The configuration with pure closures: what each closure answers when the
    world is [w0] *)
Definition answer {W A} (w0 : W) (b : ebehavior W A) : behavior A :=
  match b with
  | EParse => Parse | EIgnore => Ignore | ESkip => Skip
  | EMap f => MapB (fun a => fst (f a w0))
  | EFlatMap f => FlatMap (fun a => fst (f a w0))
  end.
Definition answers {W} (w0 : W) (E : econfig W) : config :=
  {| allow_no_space_in_headings := e_allow_no_space_in_headings E;
     html_entities := e_html_entities E;
     b_blockquote := answer w0 (eb_blockquote E); b_github_alert := answer w0 (eb_github_alert E);
     b_heading_v1 := answer w0 (eb_heading_v1 E); b_heading_v2 := answer w0 (eb_heading_v2 E);
     b_thematic_break := answer w0 (eb_thematic_break E); b_list := answer w0 (eb_list E);
     b_code_block := answer w0 (eb_code_block E); b_html_block := answer w0 (eb_html_block E);
     b_footnote_definition := answer w0 (eb_footnote_definition E); b_link_definition := answer w0 (eb_link_definition E);
     b_table := answer w0 (eb_table E); b_paragraph := answer w0 (eb_paragraph E);
     i_autolink := answer w0 (ei_autolink E); i_link := answer w0 (ei_link E);
     i_footnote_reference := answer w0 (ei_footnote_reference E); i_reference_link := answer w0 (ei_reference_link E);
     i_hard_newline := answer w0 (ei_hard_newline E); i_image := answer w0 (ei_image E);
     i_code_span := answer w0 (ei_code_span E); i_emphasis := answer w0 (ei_emphasis E);
     i_strikethrough := answer w0 (ei_strikethrough E); i_text := answer w0 (ei_text E);
     custom_block := option_map (fun p s => fst (p s w0)) (e_custom_block E);
     custom_inline := option_map (fun p s => fst (p s w0)) (e_custom_inline E);
     punct_table := e_punct_table E; upper_table := e_upper_table E |}.

(** [P] holds of every closure of the configuration *)
Definition on_hook {W A} (P : forall X Y, (X -> W -> Y * W) -> Prop) (b : ebehavior W A) : Prop :=
  match b with EMap f => P _ _ f | EFlatMap f => P _ _ f | _ => True end.
Definition on_custom {W A} (P : forall X Y, (X -> W -> Y * W) -> Prop) (p : option (eparser W A)) : Prop :=
  match p with Some p => P _ _ p | None => True end.
Definition every_closure {W} (P : forall X Y, (X -> W -> Y * W) -> Prop) (E : econfig W) : Prop :=
  (on_hook P (eb_blockquote E) /\ on_hook P (eb_github_alert E) /\ on_hook P (eb_heading_v1 E) /\ on_hook P (eb_heading_v2 E)
   /\ on_hook P (eb_thematic_break E) /\ on_hook P (eb_list E) /\ on_hook P (eb_code_block E) /\ on_hook P (eb_html_block E)
   /\ on_hook P (eb_footnote_definition E) /\ on_hook P (eb_link_definition E) /\ on_hook P (eb_table E) /\ on_hook P (eb_paragraph E))
  /\ (on_hook P (ei_autolink E) /\ on_hook P (ei_link E) /\ on_hook P (ei_footnote_reference E) /\ on_hook P (ei_reference_link E)
   /\ on_hook P (ei_hard_newline E) /\ on_hook P (ei_image E) /\ on_hook P (ei_code_span E) /\ on_hook P (ei_emphasis E)
   /\ on_hook P (ei_strikethrough E) /\ on_hook P (ei_text E))
  /\ on_custom P (e_custom_block E) /\ on_custom P (e_custom_inline E).

(** the answers do not depend on the state of the world (the closure may still
    change it: a counter, a log, a list of collected links) *)
Definition blind {W} (X Y : Type) (f : X -> W -> Y * W) : Prop := forall x w w', fst (f x w) = fst (f x w').
(** every call moves the world along [rel] *)
Definition along {W} (rel : W -> W -> Prop) (X Y : Type) (f : X -> W -> Y * W) : Prop := forall x w, rel w (snd (f x w)).
