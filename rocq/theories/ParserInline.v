(** The inline parser: /repo/src/parser/inline/*.rs and
    /repo/src/parser/link_util.rs.  Recursive calls ([inline_many1] on the
    content of an element) go through the argument [rec]; the recursion is tied
    with fuel at the end of the file.  [ParserTotal.v] proves the fuel given
    always suffices. *)
From Coq Require Import String.
From Verif Require Export ParserConfig.
Import ListNotations.
Open Scope list_scope.

(** ** Leaf parsers *)

(** autolink.rs:53-59 *)
Definition is_scheme_char (c : char) : bool := is_alnum c || existsb (N.eqb c) (lit "+.-").
(** autolink.rs:48-51 [scheme] *)
Definition p_scheme : parser str := recognize (pair_ (satisfy is_alpha) (take_while1 is_scheme_char)).
Definition is_ascii_control (c : char) : bool := (c <? 32)%N || (c =? 127)%N.
(** autolink.rs:15-32 [uri]; ASCII whitespace is space or control *)
Definition p_uri : parser str :=
  pmap (fun '(a, b) => a ++ lit ":" ++ b)
    (pair_ (terminated p_scheme (chr ":"))
           (take_while (fun c => negb (is_ascii_control c) && negb (N.eqb c 32)
                                 && negb (N.eqb c (ch "<")) && negb (N.eqb c (ch ">"))))).
(** autolink.rs:34-46 [email] *)
Definition p_email : parser str :=
  recognize (pair_ (take_while1 (fun c => is_alnum c || existsb (N.eqb c) (lit "_-.")))
                   (pair_ (chr "@") (take_while1 (fun c => is_alnum c || existsb (N.eqb c) (lit ".-"))))).
(** autolink.rs:10-12 *)
Definition p_autolink : parser str := delimited (chr "<") (alt [p_uri; p_email]) (chr ">").

(** code_span.rs *)
Definition backtick : char := 96%N.
Fixpoint replace_crlf (s : str) : str :=
  match s with
  | [] => []
  | c :: s' =>
      match s' with
      | d :: s'' => if N.eqb c c_cr && N.eqb d c_nl then c_sp :: replace_crlf s''
                    else c :: replace_crlf s'
      | [] => [c]
      end
  end.
Definition replace_nl (s : str) : str := map (fun c => if N.eqb c c_nl then c_sp else c) s.
Definition last_is (c : char) (s : str) : bool :=
  match rev s with x :: _ => N.eqb x c | [] => false end.
Definition strip_code (content : str) : str :=
  if starts_with [c_sp] content && last_is c_sp content
     && negb (str_eqb (trim content) [])
  then removelast (tl content) else content.
(** code_span.rs:11-36 *)
Definition p_code_span : parser str :=
  open_ticks <- recognize (many1 (char_ backtick)) ;;
  let closing := rep (List.length open_ticks) backtick in
  let closing_tag := preceded (peek (not_ (pair_ (tag closing) (char_ backtick)))) (tag closing) in
  let empty_line := pair_ line_ending (pair_ space0 line_ending) in
  content <- recognize (many1 (preceded (peek (not_ (alt [p_unit closing_tag; p_unit empty_line]))) anychar)) ;;
  _ <- tag closing ;;
  ret (strip_code (replace_nl (replace_crlf content))).

(** environment_variable.rs:24-47 [is_likely_env_var] *)
Fixpoint has_double_underscore (s : str) : bool :=
  match s with
  | c :: s' => (N.eqb c (ch "_") && match s' with d :: _ => N.eqb d (ch "_") | [] => false end)
               || has_double_underscore s'
  | [] => false
  end.
Definition is_likely_env_var (s : str) : bool :=
  existsb (N.eqb (ch "_")) s
  && negb (starts_with (lit "_") s) && negb (last_is (ch "_") s)
  && negb (has_double_underscore s)
  && negb ((List.length s <? 3) || (50 <? List.length s)).
(** environment_variable.rs:11-22 *)
Definition p_environment_variable : parser inline :=
  pmap IText (verify (recognize (pair_ alpha1 (many0 (alt [alphanumeric1; recognize (chr "_")]))))
                     is_likely_env_var).

(** footnote_reference.rs *)
Definition p_footnote_reference : parser inline :=
  pmap IFootnoteReference (delimited (tag (lit "[^")) alphanumeric1 (chr "]")).

(** hard_newline.rs *)
Definition p_hard_newline : parser inline :=
  value ILineBreak
    (alt [p_unit (pair_ (chr "\") line_ending);
          p_unit (pair_ (many_ge 2 (chr " ")) line_ending)]).

(** html_entity.rs *)
Definition hex_val (c : char) : N :=
  if is_digit c then (c - 48)%N else if is_upper c then (c - 55)%N else (c - 87)%N.
Definition hex_value (s : str) : N := fold_left (fun acc c => (16 * acc + hex_val c)%N) s 0%N.
Definition u32_max : N := 4294967295%N.
Definition as_u32 (v : N) : option N := if (v <=? u32_max)%N then Some v else None.
Definition p_entity_alpha (cfg : config) : parser str :=
  map_opt (recognize (pair_ (chr "&") (pair_ alpha1 (chr ";")))) (html_entities cfg).
Definition p_entity_numeric : parser str :=
  pmap (fun c => [c])
    (map_opt
       (delimited (tag (lit "&#"))
          (alt [map_opt digit1 (fun s => as_u32 (dec_value s));
                map_opt (preceded (one_of (lit "xX")) hex_digit1) (fun s => as_u32 (hex_value s))])
          (chr ";"))
       (fun v => if is_scalar v then Some v else None)).
Definition p_html_entity (cfg : config) : parser str := alt [p_entity_alpha cfg; p_entity_numeric].

(** ** link_util.rs *)
(** link_util.rs:145-147 *)
Definition is_valid_char (c : char) : bool :=
  negb (is_ascii_control c) && negb (N.eqb c 32) && negb (N.eqb c (ch "<")).
(** link_util.rs:81-83 *)
Definition p_escaped_any : parser char := preceded (chr "\") anychar.
(** link_util.rs:64-79 *)
Definition p_title_inner (end_delim : char) : parser str :=
  many0 (alt [p_escaped_any; none_of [end_delim; ch "\"]]).
(** link_util.rs:43-62 *)
Definition c_quote : char := 34%N.
Definition p_link_title : parser str :=
  alt [delimited (char_ c_quote) (p_title_inner c_quote) (char_ c_quote);
       delimited (chr "'") (p_title_inner (ch "'")) (chr "'");
       delimited (chr "(") (p_title_inner (ch ")")) (chr ")")].
(** link_util.rs:89-103 *)
Definition p_link_destination1 : parser str :=
  delimited (chr "<")
    (many0 (alt [preceded (chr "\") (one_of (lit "<>"));
                 preceded (peek (not_ (one_of (c_nl :: lit "<>")))) anychar]))
    (chr ">").
(** link_util.rs:120-143 [balanced_parens]; only its success and extent matter *)
Definition is_dest_char (c : char) : bool :=
  is_valid_char c && negb (N.eqb c (ch "(")) && negb (N.eqb c (ch ")")).
Fixpoint balanced_parens_f (fuel : nat) : parser unit :=
  match fuel with
  | O => fun _ => Oof
  | S f =>
      p_unit (delimited (chr "(")
        (many0 (alt [p_unit p_escaped_any; balanced_parens_f f; p_unit (satisfy is_dest_char)]))
        (chr ")"))
  end.
Definition p_balanced_parens : parser unit := fun s => balanced_parens_f (S (List.length s)) s.
(** link_util.rs:105-118 *)
Definition p_link_destination2 : parser str :=
  preceded (peek (satisfy (fun c => is_valid_char c && negb (N.eqb c (ch "<")))))
    (recognize (many1 (alt [p_unit p_escaped_any; p_balanced_parens; p_unit (satisfy is_dest_char)]))).
(** link_util.rs:85-87 *)
Definition p_link_destination : parser str := alt [p_link_destination1; p_link_destination2].

(** link_util.rs:23-41: the characters of a label *)
Definition label_ok (l : str) : bool :=
  existsb (fun c => negb (N.eqb c 32) && negb (N.eqb c 10)) l && (List.length l <? 1000).
Definition p_label_chars : parser str :=
  verify (many1 (preceded (peek (not_ (chr "]")))
                          (alt [value (ch "]") (tag (lit "\]")); anychar])))
         label_ok.

(** inline_link.rs:19-28, image.rs:27-35: the "(destination title)" part *)
Definition p_link_tail : parser (str * option str) :=
  delimited (chr "(")
    (pair_ (preceded multispace0 p_link_destination)
           (opt (preceded multispace0 p_link_title)))
    (preceded multispace0 (chr ")")).

(** image.rs:18-46 *)
Definition p_image : parser inline :=
  alt_text <- preceded (chr "!") (delimited (chr "[") (take_while (fun c => negb (N.eqb c (ch "]")))) (chr "]")) ;;
  ' (d, t) <- p_link_tail ;;
  ret (IImage (Image d t alt_text)).

(** ** Flanking rules, emphasis.rs:95-149 *)
Definition is_punct (cfg : config) (c : char) : bool := is_ascii_punct c || punct_table cfg c.
Definition is_some_and (o : option char) (f : char -> bool) : bool :=
  match o with Some c => f c | None => false end.
Definition is_none_or (o : option char) (f : char -> bool) : bool :=
  match o with Some c => f c | None => true end.
(** emphasis.rs:106-118 *)
Definition can_open (cfg : config) (marker : char) (next : option char) : bool :=
  let left_flanking :=
    is_some_and next (fun c => negb (is_whitespace c))
    && (is_some_and next (fun c => negb (is_punct cfg c)) || is_some_and next (is_punct cfg)) in
  if negb left_flanking then false
  else if N.eqb marker (ch "_")
       then negb (is_none_or next (fun c => is_whitespace c || is_punct cfg c))
       else true.
(** emphasis.rs:130-144 *)
Definition can_close (cfg : config) (marker : char) (next : option char) : bool :=
  let right_flanking := is_none_or next (fun c => is_whitespace c || is_punct cfg c) in
  if negb right_flanking then false
  else if N.eqb marker (ch "_")
       then let left_flanking :=
              is_some_and next (fun c => negb (is_whitespace c))
              && is_some_and next (fun c => negb (is_punct cfg c))
              || is_some_and next (is_punct cfg) in
            negb left_flanking || is_some_and next (is_punct cfg)
       else true.
(** emphasis.rs:93-104, 119-128 *)
Definition p_open_tag (cfg : config) (t : str) : parser unit :=
  fun s => p_unit (verify (tag t) (fun v => can_open cfg (hd 0%N v) (nth_error s (List.length v)))) s.
Definition p_close_tag (cfg : config) (t : str) : parser unit :=
  fun s => p_unit (verify (tag t) (fun v => can_close cfg (hd 0%N v) (nth_error s (List.length v)))) s.

(** inline/mod.rs:29-59 [merge_consecutive_text_elements] *)
Fixpoint merge_go (acc : option str) (l : list inline) : list inline :=
  match l with
  | [] => match acc with Some t => [IText t] | None => [] end
  | IText t :: l' => merge_go (Some (match acc with Some a => a | None => [] end ++ t)) l'
  | i :: l' => (match acc with Some t => [IText t] | None => [] end) ++ i :: merge_go None l'
  end.
Definition merge_consecutive_text_elements (l : list inline) : list inline := merge_go None l.

(** text.rs:116-120 [escaped_char] *)
Definition p_escaped_char : parser char :=
  preceded (chr "\") (one_of (lit "!""#$%&'()*+,-./:;<=>?@[\]^_`{|}~")).

(** ** The recursive part *)
Section Rec.
  Variable cfg : config.
  (** [inline_many1] on the content of an element *)
  Variable rec : parser (list inline).

  (** link_util.rs:15-41 *)
  Definition p_link_label : parser (list inline) :=
    delimited (tag (lit "[")) (l <- p_label_chars ;; nested rec l) (tag (lit "]")).

  (** inline_link.rs *)
  Definition p_inline_link : parser link :=
    children <- p_link_label ;;
    ' (d, t) <- p_link_tail ;;
    ret (Link d t children).

  (** reference_link.rs *)
  Definition p_reference_link : parser inline :=
    alt [ (text <- p_link_label ;; label <- p_link_label ;; ret (ILinkReference (LinkReference label text)));
          pmap (fun text => ILinkReference (LinkReference text text)) (terminated p_link_label (tag (lit "[]")));
          pmap (fun text => ILinkReference (LinkReference text text)) p_link_label ].

  (** emphasis.rs:68-91 *)
  Definition p_emphasis_content (close_tag : parser unit) : parser (list inline) :=
    content <- recognize (many1 (preceded (peek (not_ close_tag))
                                   (alt [p_unit (tag (lit "\*")); p_unit anychar]))) ;;
    nested rec content.
  Definition p_emph (t : str) : parser (list inline) :=
    delimited (p_open_tag cfg t) (p_emphasis_content (p_close_tag cfg t)) (p_close_tag cfg t).
  (** emphasis.rs:14-66 *)
  Definition p_emphasis : parser inline :=
    alt [ pmap (fun inner => IStrong [IEmphasis inner]) (alt [p_emph (lit "***"); p_emph (lit "___")]);
          pmap IStrong (alt [p_emph (lit "**"); p_emph (lit "__")]);
          pmap IEmphasis (alt [p_emph (lit "*"); p_emph (lit "_")]) ].

  (** strikethrough.rs *)
  Definition p_strikethrough : parser inline :=
    _ <- terminated (tag (lit "~~")) (peek (not_ (chr "~"))) ;;
    let closing_tag := preceded (peek (not_ (pair_ (tag (lit "~~")) (chr "~")))) (tag (lit "~~")) in
    content <- recognize (many1 (preceded (peek (not_ closing_tag))
                                   (alt [value (ch "~") (tag (lit "\~")); anychar]))) ;;
    _ <- tag (lit "~~") ;;
    pmap IStrikethrough (nested rec content).

  (** text.rs:41-114 [not_a_text], nested tuples of [alt] flattened *)
  Definition p_not_a_text : parser unit :=
    alt [ conditional_unit (i_autolink cfg) (p_unit p_autolink);
          conditional_unit (i_reference_link cfg) (p_unit p_reference_link);
          conditional_unit (i_hard_newline cfg) (p_unit p_hard_newline);
          conditional_unit (i_text cfg) (p_unit (p_html_entity cfg));
          conditional_unit (i_image cfg) (p_unit p_image);
          conditional_unit (i_link cfg) (p_unit p_inline_link);
          conditional_unit (i_code_span cfg) (p_unit p_code_span);
          conditional_unit (i_emphasis cfg) (p_unit p_emphasis);
          conditional_unit (i_footnote_reference cfg) (p_unit p_footnote_reference);
          conditional_unit (i_strikethrough cfg) (p_unit p_strikethrough);
          p_unit p_environment_variable ].
  (** text.rs:12-33 *)
  Definition p_text_run : parser str :=
    recognize (many1 (preceded (peek (not_ p_not_a_text)) anychar)).
  Definition p_text : parser inline :=
    pmap (fun l => IText (concat l))
      (many1 (alt [pmap (fun c => [c]) p_escaped_char; p_html_entity cfg; p_text_run])).

  (** inline/mod.rs:140-151 [custom_parser] *)
  Definition p_custom_inline : parser (list inline) :=
    match custom_inline cfg with Some p => p | None => fail end.

  (** inline/mod.rs:83-138 [inline] *)
  Definition p_inline : parser (list inline) :=
    alt [ conditional_inline (i_autolink cfg) (pmap IAutolink p_autolink);
          conditional_inline (i_link cfg) (pmap ILink p_inline_link);
          conditional_inline (i_footnote_reference cfg) p_footnote_reference;
          conditional_inline (i_reference_link cfg) p_reference_link;
          conditional_inline (i_hard_newline cfg) p_hard_newline;
          conditional_inline (i_image cfg) p_image;
          conditional_inline (i_code_span cfg) (pmap ICode p_code_span);
          pmap (fun v => [v]) p_environment_variable;
          conditional_inline (i_emphasis cfg) p_emphasis;
          conditional_inline (i_strikethrough cfg) p_strikethrough;
          p_custom_inline;
          conditional_inline (i_text cfg) p_text ].
End Rec.

(** inline/mod.rs:72-81 [inline_many1], with fuel *)
Fixpoint inline_many1_f (cfg : config) (fuel : nat) : parser (list inline) :=
  match fuel with
  | O => fun _ => Oof
  | S f => pmap (fun ll => merge_consecutive_text_elements (concat ll))
                (many1 (p_inline cfg (inline_many1_f cfg f)))
  end.
Definition inline_many1 (cfg : config) : parser (list inline) :=
  fun s => inline_many1_f cfg (S (List.length s)) s.
(** inline/mod.rs:61-70 [inline_many0] *)
Definition inline_many0 (cfg : config) : parser (list inline) :=
  fun s => pmap (fun ll => merge_consecutive_text_elements (concat ll))
                (many0 (p_inline cfg (inline_many1_f cfg (List.length s)))) s.
