(** The inline syntax, as a grammar on strings (specification for C69).

    Every rule is a relation [R s x r]: the input [s] begins with the construct
    [x], and [r] is what follows it.  The rules say nothing about how the input
    is searched; precedence between them is the order of the list
    [inline_rules]. *)
From Coq Require Import String.
From Verif Require Export SpecAst SpecParser SpecNum.
Import ListNotations.
Open Scope list_scope.

Definition all (f : char -> bool) (s : str) : Prop := Forall (fun c => f c = true) s.
Definition begins_with (c : char) (s : str) : Prop := exists t, s = c :: t.
Definition is_eol (e : str) : Prop := e = [10%N] \/ e = [13%N; 10%N].
(** space, tab, LF, CR *)
Definition is_gap (c : char) : bool := existsb (N.eqb c) [32%N; 9%N; 10%N; 13%N].

(** ** Autolinks: "<scheme:rest>", "<name@host>" *)
Definition scheme_char (c : char) : bool := is_alnum c || existsb (N.eqb c) (lit "+.-").
Definition uri_char (c : char) : bool := (32 <? c)%N && negb (existsb (N.eqb c) (127%N :: lit "<>")).
Definition uri (u : str) : Prop :=
  exists c a b, u = c :: a ++ lit ":" ++ b /\ is_alpha c = true /\ a <> [] /\ all scheme_char a /\ all uri_char b.
Definition user_char (c : char) : bool := is_alnum c || existsb (N.eqb c) (lit "_-.").
Definition host_char (c : char) : bool := is_alnum c || existsb (N.eqb c) (lit ".-").
Definition email (u : str) : Prop :=
  exists a b, u = a ++ lit "@" ++ b /\ a <> [] /\ b <> [] /\ all user_char a /\ all host_char b.
Definition autolink_at (s u r : str) : Prop := s = lit "<" ++ u ++ lit ">" ++ r /\ (uri u \/ email u).

(** ** Link destinations and titles *)
(** in angle brackets: no line break, no bare angle bracket; "\<" and "\>" stand
    for the bracket *)
Inductive angle_text : str -> str -> Prop :=
| angle_nil : angle_text [] []
| angle_esc : forall c s t, In c (lit "<>") -> angle_text s t -> angle_text (ch "\" :: c :: s) (c :: t)
| angle_char : forall c s t, ~ In c (10%N :: lit "<>") ->
    (c = ch "\" -> exists d u, s = d :: u /\ ~ In d (lit "<>")) ->
    angle_text s t -> angle_text (c :: s) (c :: t).
(** bare: balanced parentheses, backslash pairs, no blank, control or "<".  The
    destination is this text itself: backslashes are kept. *)
Definition bare_char (c : char) : bool := (32 <? c)%N && negb (existsb (N.eqb c) (127%N :: lit "<()\")).
Inductive bare_text : str -> Prop :=
| bare_nil : bare_text []
| bare_esc : forall c s, bare_text s -> bare_text (ch "\" :: c :: s)
| bare_one : forall c s, bare_char c = true -> bare_text s -> bare_text (c :: s)
| bare_parens : forall a s, bare_text a -> bare_text s -> bare_text (ch "(" :: a ++ ch ")" :: s).
(** nothing that could continue a bare destination *)
Definition bare_stops (r : str) : Prop :=
  match r with
  | [] => True
  | c :: _ => bare_char c = false /\ c <> ch "\" /\ ~ exists a t, r = ch "(" :: a ++ ch ")" :: t /\ bare_text a
  end.
Inductive destination_at : str -> str -> str -> Prop :=
| dest_angle : forall raw d r, angle_text raw d -> destination_at (lit "<" ++ raw ++ lit ">" ++ r) d r
| dest_bare : forall d r, d <> [] -> bare_text d -> bare_stops r -> destination_at (d ++ r) d r
| dest_backslash : forall d, bare_text d -> destination_at (d ++ lit "\") (d ++ lit "\") [].
(** titles: a backslash makes the next character literal *)
Inductive title_text (close : char) : str -> str -> Prop :=
| title_nil : title_text close [] []
| title_esc : forall c s t, title_text close s t -> title_text close (ch "\" :: c :: s) (c :: t)
| title_char : forall c s t, c <> close -> c <> ch "\" -> title_text close s t -> title_text close (c :: s) (c :: t).
Definition title_at (s t r : str) : Prop :=
  exists o c raw, In (o, c) [(34%N, 34%N); (ch "'", ch "'"); (ch "(", ch ")")] /\
    title_text c raw t /\ s = o :: raw ++ c :: r.
(** "(destination "title")" *)
Definition link_tail_at (s : str) (x : str * option str) (r : str) : Prop :=
  exists w1 s1 s2 s3 w3, s = lit "(" ++ w1 ++ s1 /\ all is_gap w1 /\
    destination_at s1 (fst x) s2 /\
    ((snd x = None /\ s3 = s2) \/
     (exists w2 m t, snd x = Some t /\ s2 = w2 ++ m /\ all is_gap w2 /\ title_at m t s3)) /\
    s3 = w3 ++ lit ")" ++ r /\ all is_gap w3.

(** ** The pieces of a line of text; what is inside them is still a string *)
Inductive piece :=
| PAutolink (u : str)
| PLink (text : str) (d : str) (t : option str)
| PFootnote (l : str)
| PReference (text : str) (label : option str)
| PBreak
| PImage (d : str) (t : option str) (alt : str)
| PCode (c : str)
| PWord (w : str)
| PEmph (level : nat) (text : str)
| PStrike (text : str)
| PText (t : str)
| PCustom (l : list inline).

Inductive r_autolink : str -> piece -> str -> Prop :=
| R_autolink : forall s u r, autolink_at s u r -> r_autolink s (PAutolink u) r.
(** a bracketed text ([SpecParser.label_text]: "\]" stands for "]") *)
Definition bracket_at (s text r : str) : Prop :=
  exists raw, s = lit "[" ++ raw ++ lit "]" ++ r /\ label_text raw text /\ label_fits text.
Inductive r_link : str -> piece -> str -> Prop :=
| R_link : forall s text m d t r, bracket_at s text m -> link_tail_at m (d, t) r -> r_link s (PLink text d t) r.
Inductive r_footnote : str -> piece -> str -> Prop :=
| R_footnote : forall l r, l <> [] -> all is_alnum l -> r_footnote (lit "[^" ++ l ++ lit "]" ++ r) (PFootnote l) r.
(** "[text][label]", "[text][]", "[text]", the longest that fits *)
Inductive r_reference : str -> piece -> str -> Prop :=
| R_full : forall s text m label r, bracket_at s text m -> bracket_at m label r -> r_reference s (PReference text (Some label)) r
| R_collapsed : forall s text r, bracket_at s text (lit "[]" ++ r) -> r_reference s (PReference text None) r
| R_shortcut : forall s text r, bracket_at s text r -> (forall l r', ~ bracket_at r l r') -> (forall r', r <> lit "[]" ++ r') ->
    r_reference s (PReference text None) r.
Inductive r_break : str -> piece -> str -> Prop :=
| R_backslash : forall e r, is_eol e -> r_break (lit "\" ++ e ++ r) PBreak r
| R_spaces : forall n e r, 2 <= n -> is_eol e -> r_break (rep n c_sp ++ e ++ r) PBreak r.
Inductive r_image : str -> piece -> str -> Prop :=
| R_image : forall a d t m r, ~ In (ch "]") a -> link_tail_at m (d, t) r -> r_image (lit "![" ++ a ++ lit "]" ++ m) (PImage d t a) r.
Inductive r_code : str -> piece -> str -> Prop :=
| R_code : forall n raw s c r, code_span_source n raw r s -> code_content raw c -> r_code s (PCode c) r.
(** SNAKE_case words *)
Definition word_char (c : char) : bool := is_alnum c || N.eqb c (ch "_").
Inductive r_word : str -> piece -> str -> Prop :=
| R_word : forall c t r, is_alpha c = true -> all word_char t -> (forall x, begins_with x r -> word_char x = false) ->
    In (ch "_") t -> (forall a, c :: t <> a ++ lit "_") -> (forall a b, t <> a ++ lit "__" ++ b) ->
    3 <= List.length (c :: t) <= 50 -> r_word (c :: t ++ r) (PWord (c :: t)) r.

(** ** Delimited content: up to the first place where [stop] holds, reading
    backslash + [esc] as a unit *)
Inductive up_to (esc : char) (stop : str -> Prop) : str -> str -> Prop :=
| up_here : forall r, stop r -> up_to esc stop [] r
| up_esc : forall c r, ~ stop (ch "\" :: esc :: c ++ r) -> up_to esc stop c r -> up_to esc stop (ch "\" :: esc :: c) r
| up_char : forall x c r, ~ stop (x :: c ++ r) -> ~ (x = ch "\" /\ begins_with esc (c ++ r)) ->
    up_to esc stop c r -> up_to esc stop (x :: c) r.

Section Tables.
  (** Unicode punctuation, the named character references *)
  Variable punct : char -> bool.
  Variable entities : str -> option str.
  Definition punctuation (c : char) : Prop := is_ascii_punct c = true \/ punct c = true.

  (** a delimiter run opens before anything but whitespace ("_": nor before
      punctuation), and closes at the end or before whitespace or punctuation *)
  Definition opens (m : char) (s : str) : Prop :=
    exists c t, s = c :: t /\ is_whitespace c = false /\ (m = ch "_" -> ~ punctuation c).
  Definition run_closes (t s : str) : Prop :=
    exists r, s = t ++ r /\ forall c, begins_with c r -> is_whitespace c = true \/ punctuation c.
  Definition delimited_by (t s text r : str) : Prop :=
    exists m, s = t ++ text ++ t ++ r /\ begins_with m t /\ opens m (text ++ t ++ r) /\
      text <> [] /\ up_to (ch "*") (run_closes t) text (t ++ r).
  (** triple, double, single; at each length "*" or "_" (a text begins with one
      of them only) *)
  Inductive r_emphasis : str -> piece -> str -> Prop :=
  | R_emphasis : forall m n s text r, In m (lit "*_") -> 1 <= n <= 3 -> delimited_by (rep n m) s text r ->
      (forall n' text' r', n < n' <= 3 -> ~ delimited_by (rep n' m) s text' r') ->
      r_emphasis s (PEmph n text) r.
  Definition tildes (s : str) : Prop := exists r, s = lit "~~" ++ r /\ ~ begins_with (ch "~") r.
  Inductive r_strike : str -> piece -> str -> Prop :=
  | R_strike : forall text r, ~ begins_with (ch "~") (text ++ lit "~~" ++ r) -> text <> [] ->
      up_to (ch "~") tildes text (lit "~~" ++ r) ->
      r_strike (lit "~~" ++ text ++ lit "~~" ++ r) (PStrike text) r.

  (** ** Character references *)
  Inductive entity_at : str -> str -> str -> Prop :=
  | ent_named : forall n v r, n <> [] -> all is_alpha n -> entities (lit "&" ++ n ++ lit ";") = Some v ->
      entity_at (lit "&" ++ n ++ lit ";" ++ r) v r
  | ent_dec : forall ds v r, numeral 10 ds v -> scalar v -> entity_at (lit "&#" ++ ds ++ lit ";" ++ r) [v] r
  | ent_hex : forall x hs v r, In x (lit "xX") -> numeral 16 hs v -> scalar v -> entity_at (lit "&#" ++ x :: hs ++ lit ";" ++ r) [v] r.

End Tables.

(** ** Rules in order of precedence: the first that applies is taken *)
Definition rule (A : Type) := str -> A -> str -> Prop.
Definition on {A B} (b : behavior B) (R : rule A) : rule A := fun s p r => b <> Ignore /\ R s p r.
Definition applies {A} (R : rule A) (s : str) : Prop := exists p r, R s p r.
Fixpoint first_of {A} (l : list (rule A)) (s : str) (p : A) (r : str) : Prop :=
  match l with
  | [] => False
  | R :: l' => R s p r \/ (~ applies R s /\ first_of l' s p r)
  end.
(** what the configured behaviour makes of an element *)
Definition outcome {A} (empty : A) (b : behavior A) (x : A) : list A :=
  match b with
  | Parse => [x]
  | Skip => [empty]
  | MapB f => [f x]
  | FlatMap f => f x
  | Ignore => []
  end.

Section Rules.
  Variable cfg : config.
  Definition element_rules : list (rule piece) :=
    [ on (i_autolink cfg) r_autolink;
      on (i_link cfg) r_link;
      on (i_footnote_reference cfg) r_footnote;
      on (i_reference_link cfg) r_reference;
      on (i_hard_newline cfg) r_break;
      on (i_image cfg) r_image;
      on (i_code_span cfg) r_code;
      r_word;
      on (i_emphasis cfg) (r_emphasis (punct_table cfg));
      on (i_strikethrough cfg) r_strike ].
  (** a place where some element or a character reference stands *)
  Definition special (s : str) : Prop :=
    Exists (fun R => applies R s) element_rules \/ exists v r, entity_at (html_entities cfg) s v r.
  (** text: backslash escapes, character references, runs without special places *)
  Inductive escape_at : str -> str -> str -> Prop :=
  | escape : forall c r, is_ascii_punct c = true -> escape_at (ch "\" :: c :: r) [c] r.
  Inductive run_of : str -> str -> str -> Prop :=
  | run_end : forall s, s = [] \/ special s -> run_of s [] s
  | run_char : forall c s t r, ~ special (c :: s) -> run_of s t r -> run_of (c :: s) (c :: t) r.
  Definition chunk (s v r : str) : Prop :=
    escape_at s v r \/
    ((forall v' r', ~ escape_at s v' r') /\ entity_at (html_entities cfg) s v r) \/
    ((forall v' r', ~ escape_at s v' r') /\ (forall v' r', ~ entity_at (html_entities cfg) s v' r') /\
     v <> [] /\ run_of s v r).
  Inductive chunks : str -> list str -> str -> Prop :=
  | chunks_end : forall s, (forall v r, ~ chunk s v r) -> chunks s [] s
  | chunks_more : forall s v m l r, chunk s v m -> chunks m l r -> chunks s (v :: l) r.
  Inductive r_text : str -> piece -> str -> Prop :=
  | R_text : forall s l r, l <> [] -> chunks s l r -> r_text s (PText (concat l)) r.
  (** the user's own parser comes just before plain text *)
  Inductive r_custom : str -> piece -> str -> Prop :=
  | R_custom : forall p s l r, custom_inline cfg = Some p -> p s = Ok r l -> r_custom s (PCustom l) r.
  Definition inline_rules : list (rule piece) := element_rules ++ [r_custom; on (i_text cfg) r_text].

  (** the switch of the element *)
  Definition behavior_of (p : piece) : behavior inline :=
    match p with
    | PAutolink _ => i_autolink cfg
    | PLink _ _ _ => i_link cfg
    | PFootnote _ => i_footnote_reference cfg
    | PReference _ _ => i_reference_link cfg
    | PBreak => i_hard_newline cfg
    | PImage _ _ _ => i_image cfg
    | PCode _ => i_code_span cfg
    | PWord _ => Parse
    | PEmph _ _ => i_emphasis cfg
    | PStrike _ => i_strikethrough cfg
    | PText _ => i_text cfg
    | PCustom _ => Parse
    end.

  (** ** Reading a text: pieces one after another, contents of pieces likewise,
      neighbouring texts joined *)
  Inductive builds : piece -> inline -> Prop :=
  | B_autolink : forall u, builds (PAutolink u) (IAutolink u)
  | B_link : forall text d t c, reads text c -> builds (PLink text d t) (ILink (Link d t c))
  | B_footnote : forall l, builds (PFootnote l) (IFootnoteReference l)
  | B_full : forall text label a b, reads text a -> reads label b ->
      builds (PReference text (Some label)) (ILinkReference (LinkReference b a))
  | B_short : forall text a, reads text a -> builds (PReference text None) (ILinkReference (LinkReference a a))
  | B_break : builds PBreak ILineBreak
  | B_image : forall d t a, builds (PImage d t a) (IImage (Image d t a))
  | B_code : forall c, builds (PCode c) (ICode c)
  | B_word : forall w, builds (PWord w) (IText w)
  | B_emphasis : forall text c, reads text c -> builds (PEmph 1 text) (IEmphasis c)
  | B_strong : forall text c, reads text c -> builds (PEmph 2 text) (IStrong c)
  | B_both : forall text c, reads text c -> builds (PEmph 3 text) (IStrong [IEmphasis c])
  | B_strike : forall text c, reads text c -> builds (PStrike text) (IStrikethrough c)
  | B_text : forall t, builds (PText t) (IText t)
  with yields : piece -> list inline -> Prop :=
  | Yields : forall p i, builds p i -> yields p (outcome IEmpty (behavior_of p) i)
  | Yields_custom : forall l, yields (PCustom l) l
  with pieces : str -> list inline -> Prop :=
  | P_end : pieces [] []
  | P_more : forall s p r o l, first_of inline_rules s p r -> yields p o -> pieces r l -> pieces s (o ++ l)
  with reads : str -> list inline -> Prop :=
  | Reads : forall s l l', pieces s l -> joins_to l l' -> merged l' -> reads s l'.
End Rules.
