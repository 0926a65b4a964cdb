(** Independent specifications for the LaTeX properties C32-C35 and C60: what
    well-formed LaTeX is, the intended LaTeX "view" of a document, numbering
    of footnotes.  Taken from the printer model: the configuration types,
    [escape_latex] (specified by C32) and label equality ([inline_eqb]). *)
From Coq Require Import String.
From Verif Require Export LatexPrinter SpecAst.
Import ListNotations.
Open Scope list_scope.

(** ** Well-formed LaTeX *)
(** The ten characters with a special meaning: \ { } $ & % # ^ _ ~ *)
Definition tex_special (c : char) : bool :=
  existsb (N.eqb c) (lit "\{}$&%#^_~").
Definition letters (n : str) : Prop := n <> [] /\ forallb is_alpha n = true.
Definition occurs (p s : str) : Prop := exists a b, s = a ++ p ++ b.
(** environments whose content is taken literally, and tables *)
Definition verbatim_env (n : str) : bool :=
  str_eqb n (lit "verbatim") || str_eqb n (lit "lstlisting") || str_eqb n (lit "minted").
Definition table_env (n : str) : bool := str_eqb n (lit "tabular") || str_eqb n (lit "longtabu").
Definition env_begin (n : str) : str := lit "\begin{" ++ n ++ lit "}".
Definition env_end (n : str) : str := lit "\end{" ++ n ++ lit "}".
Definition plain_char (c : char) : bool := negb (tex_special c || N.eqb c 91 || N.eqb c 93).
(** [ltx tab s]: [s] is well-formed; "&" is allowed directly inside a table only *)
Inductive ltx : bool -> str -> Prop :=
| ltx_nil tab : ltx tab []
| ltx_char tab c s : tex_special c = false -> ltx tab s -> ltx tab (c :: s)
| ltx_amp s : ltx true s -> ltx true (lit "&" ++ s)
| ltx_symbol tab c s : is_alpha c = false -> ltx tab s -> ltx tab (lit "\" ++ c :: s)
(* a command name ends at the next non-letter *)
| ltx_command tab n c s : letters n -> n <> lit "begin" -> n <> lit "end" -> is_alpha c = false ->
    ltx tab (c :: s) -> ltx tab (lit "\" ++ n ++ c :: s)
| ltx_group tab a s : ltx false a -> ltx tab s -> ltx tab (lit "{" ++ a ++ lit "}" ++ s)
| ltx_math tab n s : letters n -> ltx tab s -> ltx tab (lit "$\" ++ n ++ lit "$" ++ s)
| ltx_env tab n a s : letters n -> verbatim_env n = false -> ltx (table_env n) a -> ltx tab s ->
    ltx tab (env_begin n ++ a ++ env_end n ++ s)
| ltx_verbatim tab n opt body s : verbatim_env n = true ->
    (opt = [] \/ exists o, forallb plain_char o = true /\
        (opt = lit "[" ++ o ++ lit "]" \/ opt = lit "{" ++ o ++ lit "}")) ->
    ~ occurs (env_end n) body -> ltx tab s ->
    ltx tab (env_begin n ++ opt ++ lit "
" ++ body ++ env_end n ++ s).

(** ** Undoing the escaping *)
Fixpoint drop_prefix (p s : str) : option str :=
  match p, s with
  | [], _ => Some s
  | x :: p', y :: s' => if N.eqb x y then drop_prefix p' s' else None
  | _ :: _, [] => None
  end.

(** ** Texts with optional line breaks *)
(** A character, or a place where the printer may choose a space or a newline. *)
Inductive sch := Ch (c : char) | Soft.
Inductive sch_is : sch -> char -> Prop :=
| is_ch c : sch_is (Ch c) c
| is_sp : sch_is Soft 32%N
| is_nl : sch_is Soft 10%N.
Definition layout (t : list sch) (s : str) : Prop := Forall2 sch_is t s.
Definition chs (s : str) : list sch := map Ch s.

(** Every maximal run of white space becomes one optional line break; the rest is escaped. *)
Fixpoint flow (s : str) : list sch :=
  match s with
  | [] => []
  | c :: s' =>
      if is_whitespace c then
        match s' with
        | d :: _ => if is_whitespace d then flow s' else Soft :: flow s'
        | [] => [Soft]
        end
      else chs (escape_latex_char c) ++ flow s'
  end.

(** ** Footnotes and link definitions *)
(** Blocks reached from a block through lists, quotes and alerts, but not
    inside footnote definitions. *)
Fixpoint outer (b : block) : list block :=
  b :: match b with
       | BBlockQuote bs => flat_map outer bs
       | BList l => flat_map (fun it => flat_map outer (li_blocks it)) (l_items l)
       | BGitHubAlert a => flat_map outer (ga_blocks a)
       | _ => []
       end.
Definition outer_blocks (d : document) : list block := flat_map outer (d_blocks d).
Definition footnote_labels (d : document) : list str :=
  flat_map (fun b => match b with BFootnoteDefinition f => [fd_label f] | _ => [] end) (outer_blocks d).
Definition outer_definitions (d : document) : list link_definition :=
  flat_map (fun b => match b with BDefinition x => [x] | _ => [] end) (outer_blocks d).
(** number of a label: the 1-based position of its last definition *)
Fixpoint last_position (x : str) (l : list str) : option N :=
  match l with
  | [] => None
  | y :: l' => match last_position x l' with
               | Some n => Some (N.succ n)
               | None => if str_eqb x y then Some 1%N else None
               end
  end.
Definition tex_number (d : document) (x : str) : option N := last_position x (footnote_labels d).
Definition tex_resolve (d : document) (label : list inline) : option link_definition :=
  find (fun x => list_eqb inline_eqb label (ld_label x)) (rev (outer_definitions d)).

(** ** The LaTeX view *)
Section View.
Variable cfg : latex_config.
Variable num : str -> option N.
Variable def : list inline -> option link_definition.

Definition cs (s : string) : list sch := chs (lit s).
Arguments cs s%string.
Definition braces (t : list sch) : list sch := cs "{" ++ t ++ cs "}".
Definition cmd_ (n : string) (t : list sch) : list sch := cs "\" ++ cs n ++ braces t.
Arguments cmd_ n%string.
Definition esc (s : str) : list sch := chs (escape_latex s).

Fixpoint tex_inline (i : inline) : list sch :=
  match i with
  | IText s => if forallb is_whitespace s then chs (map (fun c => if N.eqb c 10 then 32%N else c) s) else flow s
  | ILineBreak => chs (lit "\\") ++ [Ch 10%N]
  | ICode s => cmd_ "texttt" (esc s)
  | IHtml s => esc s
  | ILink l => cmd_ "href" (esc (link_destination l)) ++ braces (flat_map tex_inline (link_children l))
               ++ match link_title l with Some t => cmd_ "footnote" (esc t) | None => [] end
  | ILinkReference r =>
      match def (lr_label r) with
      | Some x => cmd_ "href" (esc (ld_destination x)) ++ braces (flat_map tex_inline (lr_text r))
      | None => cs "[" ++ flat_map tex_inline (lr_text r) ++ cs "][" ++ flat_map tex_inline (lr_label r) ++ cs "]"
      end
  | IImage im => cs "\includegraphics{}" ++ braces (esc (image_destination im))
                 ++ match image_alt im with [] => [] | a => cmd_ "caption" (esc a) end
  | IEmphasis c => cmd_ "textit" (flat_map tex_inline c)
  | IStrong c => cmd_ "textbf" (flat_map tex_inline c)
  | IStrikethrough c => cmd_ "sout" (flat_map tex_inline c)
  | IAutolink u => cmd_ "url" (esc u)
  | IFootnoteReference x =>
      match num x with
      | Some n => cmd_ "footnotemark" (chs (lit "[" ++ dec n ++ lit "]"))
      | None => cs "[^" ++ esc x ++ cs "]"
      end
  | IEmpty => []
  end.
Definition tex_inlines (l : list inline) : list sch := flat_map tex_inline l.

Definition nl : list sch := [Ch 10%N].
Definition env_ (n : string) (opt : list sch) (t : list sch) : list sch :=
  chs (env_begin (lit n)) ++ opt ++ nl ++ t ++ nl ++ chs (env_end (lit n)).
Arguments env_ n%string.
Definition section_ (k : heading_kind) : string :=
  match k with
  | Atx n => if N.eqb n 1 then "section" else if N.eqb n 2 then "subsection"
             else if N.eqb n 3 then "subsubsection" else if N.eqb n 4 then "paragraph" else "subparagraph"
  | Setext Level1 => "section" | Setext Level2 => "subsection"
  end%string.
Definition tex_code (c : code_block) : list sch :=
  let lang := match cb_kind c with Fenced i => i | Indented => None end in
  match lc_code_block_style cfg with
  | Verbatim => env_ "verbatim" [] (chs (cb_literal c))
  | Listings => env_ "lstlisting" (match lang with Some l => chs (lit "[language=" ++ l ++ lit "]") | None => [] end)
                  (chs (cb_literal c))
  | Minted => env_ "minted" (braces (match lang with Some l => chs l | None => cs "text" end)) (chs (cb_literal c))
  end.
(** items separated by [sep] *)
Fixpoint sep_by (sep : list sch) (l : list (list sch)) : list sch :=
  match l with
  | [] => []
  | [x] => x
  | x :: l' => x ++ sep ++ sep_by sep l'
  end.
(** a row: cells separated by "&", ended by "\\" *)
Definition tex_row (r : table_row) : list sch := sep_by (cs " & ") (map tex_inlines r) ++ chs (lit " \\").
Definition columns (al : list alignment) : str :=
  map (fun a => match a with ARight => 114 | ACenter => 99 | _ => 108 end%N) al.
Definition tex_table (t : table) : list sch :=
  let spec := columns (t_alignments t) in
  let rows (rule : string) (tail : list sch) :=
    match t_rows t with
    | [] => []
    | h :: rs => tex_row h ++ nl ++ cs rule ++ nl ++ flat_map (fun r => tex_row r ++ tail ++ nl) rs
    end in
  match lc_table_style cfg with
  | Tabular => env_ "tabular" (chs (lit "[" ++ spec ++ lit "]")) (rows "\hline"%string [])
  | Longtabu => env_ "longtabu" (chs (lit "[X[l] to \textwidth {" ++ spec ++ lit "}]")) (rows "\\ \hline"%string (chs (lit " \\")))
  | Booktabs => env_ "tabular" (chs (lit "[" ++ spec ++ lit "]"))
                  (cs "\toprule" ++ nl ++ rows "\midrule"%string [] ++ cs "\bottomrule")
  end.
Definition alert_name (t : alert_type) : str :=
  match t with
  | Note => lit "Note" | Tip => lit "Tip" | Important => lit "Important"
  | Warning => lit "Warning" | Caution => lit "Caution" | Custom s => s
  end.

Fixpoint tex_block (b : block) : list sch :=
  match b with
  | BParagraph c => tex_inlines c
  | BHeading h => cmd_ (section_ (h_kind h)) (tex_inlines (h_content h))
  | BThematicBreak => cmd_ "hrule" []
  | BBlockQuote bs => env_ "quote" [] (sep_by (nl ++ nl) (map tex_block bs))
  | BList l =>
      env_ (match l_kind l with Ordered _ => "enumerate" | Bullet _ => "itemize" end%string) []
        (flat_map (fun it =>
           cs "\item " ++ match li_task it with
                          | Some Complete => cs "$\boxtimes$ " | Some Incomplete => cs "$\square$ " | None => []
                          end ++ sep_by (nl ++ nl) (map tex_block (li_blocks it)) ++ nl) (l_items l))
  | BCodeBlock c => tex_code c
  | BHtmlBlock s => esc s
  | BDefinition _ | BEmpty => []
  | BTable t => tex_table t
  | BFootnoteDefinition f =>
      match num (fd_label f) with
      | Some n => cmd_ "footnotetext" (chs (lit "[" ++ dec n ++ lit "] ") ++ sep_by (nl ++ nl) (map tex_block (fd_blocks f)))
      | None => []
      end
  | BGitHubAlert a => cmd_ "footnote" (chs (alert_name (ga_type a)) ++ cs ": " ++ sep_by (nl ++ nl) (map tex_block (ga_blocks a)))
  end.
End View.
(** blocks are separated by an empty line *)
Definition tex_view (cfg : latex_config) (d : document) : list sch :=
  sep_by (nl ++ nl) (map (tex_block cfg (tex_number d) (tex_resolve d)) (d_blocks d)).

(** ** Side conditions for well-formedness *)
Definition code_env (cfg : latex_config) : str :=
  match lc_code_block_style cfg with
  | Verbatim => lit "verbatim" | Listings => lit "lstlisting" | Minted => lit "minted"
  end.
(** code does not contain the end of its environment; languages and custom
    alert labels contain no special characters (nor brackets) *)
Definition block_clean (cfg : latex_config) (b : block) : Prop :=
  match b with
  | BCodeBlock c => ~ occurs (env_end (code_env cfg)) (cb_literal c) /\
      match cb_kind c with Fenced (Some l) => forallb plain_char l = true | _ => True end
  | BGitHubAlert a => match ga_type a with Custom s => forallb plain_char s = true | _ => True end
  | _ => True
  end.
(** every footnote reference has a definition outside footnotes *)
Definition refs_defined (d : document) : Prop :=
  forall x, In (IFootnoteReference x) (doc_inlines d) -> In x (footnote_labels d).
