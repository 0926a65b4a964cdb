(** Harmless HTML (specification for C93): the elements and attributes a renderer
    of untrusted Markdown may produce.  No scripts, styles, frames, forms, event
    handlers or inline styles. *)
From Coq Require Import String.
From Verif Require Export SpecHtml.
Import ListNotations.
Open Scope list_scope.

Definition harmless : list (string * list string) :=
  [ ("p", ["class"]); ("h1", []); ("h2", []); ("h3", []); ("h4", []); ("h5", []); ("h6", []);
    ("hr", []); ("br", []); ("blockquote", []); ("ol", ["start"]); ("ul", ["class"]); ("li", []);
    ("div", ["class"]); ("span", ["class"]); ("pre", []); ("code", []); ("em", []); ("b", []); ("s", []);
    ("table", []); ("thead", []); ("tbody", []); ("tr", []); ("th", ["class"]); ("td", ["class"]);
    ("a", ["class"; "href"; "title"]); ("img", ["src"; "alt"; "title"]);
    ("svg", ["class"; "viewBox"; "version"; "width"; "height"; "aria-hidden"]); ("path", ["d"]) ]%string.
Definition harmless_token (t : tok) : Prop :=
  match t with
  | TOpen n a => exists name keys, In (name, keys) harmless /\ n = lit name /\
      Forall (fun kv => exists key, In key keys /\ fst kv = lit key) a
  | _ => True
  end.
