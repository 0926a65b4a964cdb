(** The part of the external crate [pretty] 0.12 used by the printers.  The
    crate's sources are not available in the sandbox; this re-models its
    documented algorithm ([Doc], [best], [fitting] in pretty's render.rs).

    Printer functions may panic while building a document or inside a
    [column] callback; such a panic is the document [DPanic], and rendering a
    document in which the renderer reaches it is [None]. *)
From Verif Require Export Chars.

Inductive doc : Type :=
| DNil
| DText (s : str)                 (* [text], [as_string]; may contain "\n" verbatim *)
| DAppend (a b : doc)
| DFlatAlt (b f : doc)            (* [b.flat_alt(f)] *)
| DGroup (d : doc)
| DNest (n : nat) (d : doc)
| DHardline
| DColumn (f : nat -> doc)
| DPanic.

(** [DocBuilder::append]: appending nil is dropped *)
Definition append (a b : doc) : doc :=
  match a, b with
  | DNil, _ => b
  | _, DNil => a
  | _, _ => DAppend a b
  end.
(** [DocBuilder::group]: no group around nil, text or a group *)
Definition group (d : doc) : doc :=
  match d with
  | DNil | DText _ | DGroup _ => d
  | _ => DGroup d
  end.
(** [DocAllocator::concat] and [intersperse] *)
Definition concat_docs (l : list doc) : doc := fold_left append l DNil.
Definition intersperse (l : list doc) (sep : doc) : doc :=
  match l with
  | [] => DNil
  | x :: l' => fold_left (fun acc y => append (append acc sep) y) l' x
  end.
(** [arena.space()], [arena.line()], [arena.softline()], [doc.nest(n)] *)
Definition space : doc := DText [c_sp].
Definition line : doc := DFlatAlt DHardline space.
Definition softline : doc := group line.
Definition nest (n : nat) (d : doc) : doc :=
  match d with DNil => DNil | _ => match n with O => d | _ => DNest n d end end.

Inductive mode := Break | Flat.
Definition cmd := (nat * mode * doc)%type.

Section Render.
(** Display width of a non-ASCII string ([unicode-width]); ASCII strings are
    as wide as they are long. *)
Variable uwidth : str -> nat.
Definition text_len (s : str) : nat := if forallb is_ascii s then length s else uwidth s.

Variable width : nat.

(** Outcome of trying to fit a document: too wide / line break reached /
    end reached at a column / panic in a callback. *)
Inductive fitres := FNo | FYes | FGo (pos : nat) | FPanic.
(** render.rs [fitting], as structural recursion instead of an explicit stack *)
Fixpoint fit (m : mode) (d : doc) (pos : nat) : fitres :=
  match d with
  | DNil => FGo pos
  | DText s => let pos' := pos + text_len s in if width <? pos' then FNo else FGo pos'
  | DAppend a b => match fit m a pos with FGo pos' => fit m b pos' | r => r end
  | DFlatAlt b f => match m with Break => fit m b pos | Flat => fit m f pos end
  | DGroup d' | DNest _ d' => fit m d' pos
  | DHardline => match m with Break => FYes | Flat => FNo end
  | DColumn f => fit m (f pos) pos
  | DPanic => FPanic
  end.
(** the pending commands are examined in [Break] mode *)
Fixpoint fit_rest (rest : list cmd) (pos : nat) : fitres :=
  match rest with
  | [] => FYes
  | (_, _, d) :: rest' => match fit Break d pos with FGo pos' => fit_rest rest' pos' | r => r end
  end.
Definition fitting (d : doc) (rest : list cmd) (pos : nat) : fitres :=
  match fit Flat d pos with FGo pos' => fit_rest rest pos' | r => r end.

(** render.rs [best]: the output for one command, with [rest] the commands
    still pending, together with the final column.  Structural recursion
    instead of the explicit stack: processing [DAppend a b] pushes [b] and
    continues with [a].  A hard line break uses the indentation of the next
    pending command, if there is one. *)
Fixpoint best (ind : nat) (m : mode) (d : doc) (rest : list cmd) (pos : nat) : option (str * nat) :=
  match d with
  | DNil => Some ([], pos)
  | DText s => Some (s, pos + text_len s)
  | DAppend a b =>
      match best ind m a ((ind, m, b) :: rest) pos with
      | None => None
      | Some (sa, pos1) =>
          match best ind m b rest pos1 with
          | None => None
          | Some (sb, pos2) => Some (sa ++ sb, pos2)
          end
      end
  | DFlatAlt b f => match m with Break => best ind m b rest pos | Flat => best ind m f rest pos end
  | DGroup d' =>
      match m with
      | Flat => best ind Flat d' rest pos
      | Break =>
          match fitting d' rest pos with
          | FYes | FGo _ => best ind Flat d' rest pos
          | FNo => best ind Break d' rest pos
          | FPanic => None
          end
      end
  | DNest n d' => best (ind + n) m d' rest pos
  | DHardline =>
      let i := match rest with (i, _, _) :: _ => i | [] => ind end in
      Some (c_nl :: rep i c_sp, i)
  | DColumn f => best ind m (f pos) rest pos
  | DPanic => None
  end.

(** [doc.render(width, &mut buf)] *)
Definition render (d : doc) : option str := option_map fst (best 0 Break d [] 0).
End Render.

(** ** Documents without layout: their text *)
Fixpoint dtext (d : doc) : option str :=
  match d with
  | DNil => Some []
  | DText s => Some s
  | DAppend a b => match dtext a, dtext b with Some x, Some y => Some (x ++ y) | _, _ => None end
  | _ => None
  end.
