# A Rocq (Coq 8.16.1) model of johnlepikhin/markdown-ppp and its properties

The code in `/repo/src` (Rust) is modelled function by function as executable
Gallina in `rocq/theories/*.v`; every definition cites the file and lines it
models.  Proofs live in separate files (`*Facts.v`, `*Props.v`, `Round*.v`,
`Syntax*.v`, ...), and the
claims live in `Prop*.v` files containing only `Theorem … Proof. exact … Qed.`
followed by `Print Assumptions`, plus `Example`s showing the hypotheses are
met by concrete non-trivial inputs.  Small independent specifications
(pre-order listings, HTML tokenizer/decoder, ...) are in `Spec*.v`.

## 1. Layers of the model

| file | models |
|------|--------|
| `Chars.v` | Rust `char`/`str` as `N` / `list N` (Unicode scalar values), `char::is_whitespace`, ASCII classes, decimal printing |
| `Ast.v` | `src/ast/mod.rs`, `src/ast/github_alerts` |
| `GenericAst.v` | `src/ast/generic.rs`, `src/ast/convert.rs`, `src/ast/map_data_visitor.rs`, `src/ast_specialized/*` |
| `Query.v` | `src/ast_transform/query.rs` |
| `Visitor.v` | `src/ast_transform/visitor.rs` |
| `Transformer.v` | `src/ast_transform/transformer.rs`, `convenience.rs`, `pipeline.rs` |
| `GenericTransformer.v` | `src/ast_transform/generic_transformer.rs` |
| `Pretty.v` | the part of the external crate `pretty` 0.12 that the printers use |
| `HtmlPrinter.v` | `src/html_printer/*` |
| `LatexPrinter.v` | `src/latex_printer/*` |
| `MdPrinter.v` | `src/printer/*` |
| `Nom.v` | the part of the external crate `nom` 8 that the parser uses |
| `ParserConfig.v` (with `parser/util.rs`), `ParserInline.v`, `ParserBlock.v` | `src/parser/*` |

## 2. Modelling choices

* **Strings** are lists of Unicode scalar values (`N`).  Rust indexes bytes;
  the only places where the byte length matters (`str::len()` in the Markdown
  syntax detector, `pretty`'s ASCII fast path) are modelled explicitly.
* **Panics** (`unwrap` on `None`, arithmetic overflow/underflow with the debug
  profile, index out of range) are explicit error values.
* **Closures** passed by the user (predicates, mappers, visitors, hooks) are
  arbitrary Gallina functions, state-passing where Rust takes `FnMut`/`&mut
  self`; theorems quantify over them.  Panicking or non-terminating closures
  are not modelled.
* **Parser recursion.**  Parsers are functions `str -> result`; nested content
  is parsed by recursion on explicit fuel and exhaustion is a separate value
  (`Oof`), proved unreachable when fuel exceeds the length of the input.
* **External crates** (`nom`, `pretty`, `regex`, `entities`,
  `unicode_categories`) are not in the sandbox.  `nom` combinators and
  `pretty`'s renderer are re-modelled from their documented behaviour;
  regexes are modelled by hand-written matchers; the HTML entity table, the
  non-ASCII punctuation class, and non-ASCII `to_uppercase` are *parameters* –
  the theorems hold for all their values.
* **Not modelled**: stack depth / memory / running time, `RefCell` re-entrancy
  of custom-parser closures, serialisation formats (serde's derived code is
  modelled at the level of JSON values, `Serde.v`; the text of JSON and
  the nesting limit of a JSON reader are not), `Debug`
  output, the binary/CLI examples, rustdoc.

## 3. Trusted base

* Coq 8.16.1's kernel, including `vm_compute` (used for the examples and for
  concrete counterexamples).
* `Print Assumptions` under **every** property theorem prints "Closed under the
  global context": no axioms are used, not even the standard library's.  (The
  axiom listing of a whole-library check such as vcheck's also names
  `Coq.ssr.ssrunder.Under_rel.*`: these are the module-type fields of
  `ssreflect`'s `under` tactic, loaded with the standard prelude of `Lia`/`ssr`;
  no theorem here depends on them.)
* The reading of `/repo` recorded in the comments of the model, definition by
  definition.  It cannot be checked by running the code here.  As a partial
  substitute, `ConformanceParser.v`, `ConformanceMd.v` and `ConformanceOut.v` (generated by
  `tools/conformance*.py` from the unit tests in
  `/repo/src/{parser,printer,html_printer,latex_printer}`: 420 examples)
  run the model on the inputs of the repository's tests and compare with the
  expected values of those tests, in the kernel.
* The re-models of the external crates: `nom` 8 (`Nom.v`), `pretty` 0.12
  (`Pretty.v`), the regular expressions of the Markdown printer's syntax
  detector, `str::split_whitespace`, `trim`, `lines`, decimal printing.
* Points where the model deliberately abstracts:
  - entity table, Unicode punctuation, `to_uppercase`, `unicode-width`, Unicode
    digits: parameters over which every theorem quantifies (ASCII part fixed
    where the code relies on it);
  - `usize::MAX` (the width used for "no line breaks") is a parameter `big`;
  - `tag_no_case` compares ASCII letters case-insensitively; the only
    non-ASCII character that lower-cases to an ASCII letter is U+212A, and the
    comment at `html_block6_tags` explains why it makes no difference;
  - hooks and custom parsers of the parser configuration are pure functions
    (Rust: `FnMut`) in `ParserConfig/Inline/Block.v`; `EffNom.v` and
    `EffParser.v` model them again with state threaded through every attempt,
    also the abandoned ones, and C83 relates the two models.  Custom parsers must be *well-behaved* (`custom_ok`:
    they return a proper suffix of their input and never run out of fuel);
  - arithmetic is that of the debug profile (overflow = panic);
  - stack depth, memory and time are not modelled.

## 4. Plan per property

| id | modelled | how proved |
|----|----------|-----------|
| C01 | conversion functions both ways | structural induction on the nested AST |
| C02 | `visit_*` state-passing map | induction; pure closure = state unit; strip∘map = strip, functor laws |
| C03 | `visit_*` with state | result equals left-to-right fold over an independently defined post-order listing of data, written back in the same order |
| C04 | `IdGenerator`, `add_ids_from` with u64 check | corollary of C03 with counter closure |
| C05–C07 | `Query` trait functions | equality with `filter p (preorder d)` for an independent pre-order listing |
| C08–C09 | `Visitor` trait with overridable hooks (open recursion) | recorder visitor equals pre-order event list; collector = find_all |
| C10 | `Transformer` default walk | induction over AST |
| C11–C14 | convenience transforms | equality with independent "map over strings of kind K" substitution; identity, fusion, commutation |
| C15–C17 | `remove_empty_text`, `normalize_whitespace`, filters | corollaries of C11-style characterisation plus string lemmas about `split_whitespace`/join |
| C18 | pipelines as lists of boxed steps | induction on step list |
| C19–C20 | `expand_*` walk | induction; flat-map characterisation for an arbitrary inline expander |
| C21 | generic transformer default | induction |
| C22 | `escape` | list induction, decoder left inverse |
| C23–C24 | HTML printer | output is serialisation of an independent element tree; tokenizer recovers the tags |
| C25 | attribute escaping | refuted (double escaping) with the exact characterisation proved |
| C26 | HTML document uses no layout choice | lemma: text-only docs render to their concatenation for every width |
| C27 | footnote index (state pass) | invariant over the walk; numbers = rank of first occurrence |
| C28 | footnote index | exact: the direct references are numbered; "every reference" refuted (nested in emphasis) |
| C29 | link-definition index | induction; last definition wins; unresolved reference loses its text (refuted part) |
| C30 | `render_html` | panic-freedom characterised: iff no table without rows |
| C31 | HTML text content | induction |
| C32 | `escape_latex` | list induction with decoder |
| C33 | LaTeX printer | balanced-token grammar, induction |
| C34 | LaTeX footnote index | invariant over walk |
| C35, C39 | layout relation | all layouts of a Doc agree after erasing blanks |
| C36 | `printer/table.rs` | padding arithmetic |
| C37 | `printer/*` | exact panic conditions (iff); "never panics" refuted |
| C38 | wrap detector + inline printing | proved for the documented list of words; the wider claim refuted for e.g. `1)` |
| C40 | `printer/list.rs` | induction over items |
| C41 | parser ∘ printer on fragment | grammar of C69 for inlines, symbolic execution of the block parser on printed lines; every layout is a re-wrapping in the fragment |
| C42–C44 | whole parser | `good` combinator calculus: no fuel exhaustion, progress, success; induction on fuel |
| C45–C49 | whole parser | compositional output invariants |
| C50–C53 | behaviours | output invariants / equality of parsers; C52 refuted |
| C54 | alert marker parser | case analysis; prefix defect refuted |
| C55 | parser + printers | C46/C49 + C30/C37 characterisations |
| C56–C58 | literal parsers | direct |
| C59, C60 | HTML / LaTeX printers | output = serialisation of an independent view (SpecHtml.v, SpecLatex.v) |
| C61–C64 | hooks, escapes | parser with hooks related to parser without by induction; refutations by computation |
| C65 | quotes of whole documents | quote lines of a '>'-prefixed source are its lines, so the nested parse is the parse of the source; alternatives before the quote fail; '> #' refuted by computation and for all texts |
| C66 | Markdown printer | the set of layouts of the emitted `Doc` described by an independent line view |
| C67 | Markdown printer | congruence of the printer under newline/space exchange in texts |
| C68 | `pretty` best-fit + word layout | the renderer computes the specification's greedy layout of the document's view (SpecFlow.v), by induction over the documents built (FlowFacts.v); for paragraphs also the fill of its words (SpecFill.v) |
| C69 | inline parser | *exactness*: for each parser, success with (value, rest) iff the grammar rule relates them; induction on fuel |
| C70 | block parser | same, on top of C69 |
| C71 | `IdGenerator` as a state machine over calls | induction on the history (from its end); exact panic condition |
| C72 | `IdAssignmentVisitor` threaded through several documents | induction on the sequence, C03 for each document |
| C73 | builder methods of the four configurations (generated by `tools/gen_config.py`) | fold over the calls; "last call that names the setting" |
| C74 | the parse tree, through the grammar of C69/C70 | mutual induction on the derivations of the grammar |
| C75 | custom parsers as pure functions in the configuration | mutual induction: every re-read text is written with characters of the document, so both grammars coincide on it |
| C76 | order of the alternatives | README claim refuted by examples; grammar derivations for what does hold |
| C77 | all strings of the parse tree | closure of every grammar rule under a set of characters, then induction on the derivations |
| C78 | derived serialisation and deserialisation of both trees, as JSON values | structural induction: each node is read back from any reordering of its fields |
| C79 | the same with every `user_data` field removed | the same induction with the field absent |
| C80 | parse of a source and of the same source with LF endings | simulation: on inputs equal up to line endings every combinator and block parser consumes related text and gives equal results |
| C81 | parse of a source preceded by blank lines | induction on the blank lines: many_empty_lines0 absorbs one line, the first block and the trailing blank skip see the same input |
| C82 | parse of a source and of the source with final line feeds | every rule of the block grammar (SpecBlock.v) reads both alike: same values, rests again equal up to the final line feed; transported to the parser by C70 |
| C83 | parser whose closures pass a state (`EffParser.v`) | simulation of the pure parser combinator by combinator; preorder on states preserved by every combinator |
| C84 | the same with counting and logging hooks | at least once: what holds of elements in the state reached, by induction over the parser; at most once: lower bounds on calls for two families of sources |
| C85 | the block grammar of C70 on `u ++ "\n\n"` and on `u ++ "\n\n" ++ b` | every rule reads both alike (simulation lemmas per rule, both directions), then induction over the blocks of the first source; counterexamples by computation |
| C86 | the readers of C78 on any JSON value, with structs as objects or as rows | one characterisation per combinator (field, option, sequence, choice, record), then induction on the size of the JSON value; both directions |
| C87–C88 | both transformer traits with every method overridden | recording methods applied to arbitrary functions: the state is the list of document-order events, the result the bottom-up rebuilding (`SpecHooks.v`); induction over both trees |
| C89 | `expand_with` of the generic trait with every expansion method replaced; the methods nothing calls | induction; equality with `replace_document`; refutations by computation and by conversion |
| C90 | `expand_with` and `transform_with` of the same transformer | induction with state; refutations by computation |
| C91 | `render_markdown` of concatenated documents | layout of a block does not depend on what follows a line end (SpecJoin.v); refutation of the untidy case by computation |
| C92 | `parse_markdown` | every rule of the grammar of C69/C70 keeps the letters of what it reads (induction on derivations); what a document says is a separate relation (SpecLoss.v) |
| C93 | `parse_markdown`, `render_html` | the token view of C24/C31 for documents without raw HTML (C50, C62, alert names are identifiers: SafeParse.v), every token of the view is in the list of SpecSafe.v |
| C94 | `parse_markdown`, `render_latex` | the LaTeX view of C60: each of its fragments is read by the scanner of SpecSafeTex.v from plain text to plain text and holds listed commands only |
| C95 | `render_html`, `render_latex` | standalone blocks leave the indices unchanged and are laid out independently of them (induction); the layout engine decides nothing across a line break at column 0 (lemmas of C91) |
| C96 | `parse_markdown`, `render_markdown` | any layout of the document's view (C66) is read back (`document_round`, proved for all layouts, not only the printed one); re-rendering by C67; prose paragraphs exactly via `rich_settled`, `rich_parses` |
| C97 | `render_html` | corollary of the white list of C93 (which has no id or name) for all documents without raw HTML |
| C98 | `WithData` | the data listing (C02) of the result is a list of defaults followed by the datum (nested induction) |
| C99 | size of the document | induction over the grammars of C69/C70: a superadditive function of the length bounds the size of inlines, another that of blocks; refutations: nested escaped brackets read through the grammar (2^k nodes from (k+2)^2 characters), wide header over narrow rows |
| C100 | `parse_markdown`, config builders | the grammars of C69/C70 under the two configurations agree rule by rule on every text written with the characters of the source (and without four spaces in a row); induction over derivations |
| C101 | `parse_markdown` | every rule of the grammars of C69/C70 commutes with an exchange of characters; negative premises by the inverse exchange; induction over derivations |
| C102 | `render_html`, `render_latex`, `render_markdown` | similarity of `pretty` documents up to respelling is preserved by every combinator and by the layout algorithm; every printer function maps respelled input to similar documents; C101 for the end-to-end form |
| C103 | `render_markdown`, `parse_markdown`, `render_html`, `render_latex` | indices and HTML structure are insensitive to wrapping (induction over the document, texts of the layout-free HTML documents compared up to line breaks); the LaTeX view of C60 is equal; C41 for the formatted document |
| C104 | `render_html`, `render_latex` | the index of the renamed document is the renamed index (induction over blocks); lookups commute with one-to-one renamings; LaTeX via the view of C60 |
| C105 | `parse_markdown`, `render_html`, `render_latex` | SpecMeaning.v adds equality of token lists up to spaces and line breaks to the trees of C59/C60 and the fragment of C41. MeaningFacts: the HTML tree of a document and of its unwrapped form have the same tokens (induction over blocks and inlines); with C96 (any layout is parsed up to wrapping), C46 (tables have headers), C59 and C60 this gives the end-to-end theorem. | |
| C106 | `parse_markdown` | depth as one more than the deepest child; induction over the grammars of C69/C70 with the length bounds of C99 (SizeFacts): every piece is at least as long as its depth, every block one shorter; quotes around a letter reach the bound (EffCost.quotes_document) |
| C107 | `render_html`, `render_latex` | size of SpecSize (C99); the length of the text of a pretty-printed document is additive over `append` (HTML), the length of the view of C60 (LaTeX); induction over the AST with a factor that absorbs the constants; C27/C29 and C34 for what references are replaced with; C99, C49, C50 for sources |

## 5. Results

`MANIFEST.json` gives the status of each property and its theorems.  "partial"
means: the property as stated is **false of the code** (a theorem with suffix
`_refuted` exhibits the counterexample and is about the modelled program, not
about the specification), and the strongest true version is proved beside it;
or (C41, C68) that the theorem covers the fragment given in its statement.

The two strongest results are C69 and C70: the parser of the model is *exactly*
the declarative grammar of `SpecInline.v` / `SpecBlock.v`, for all inputs and
all configurations; together with C61 (hooks), C59/C60/C66 (each printer is
exactly its view) every edit of the model with an observable effect breaks some
theorem.  `seeded/LOG.jsonl` records the edits tried (`tools/mutate.py`): for
each one the lemmas whose proofs broke and the property theorems that then rest
on a broken lemma.

## 6. Defects found in the code

Each is either the subject of a `_refuted` theorem or visible in the grammar
(C69/C70).

*AST and transformers*
* `Transformer::expand_*`: an overridden `walk_expand_inline` is not applied
  inside list items and table cells (C20).
* `GenericTransformer`'s documentation example overrides `expand_block`, which
  nothing reachable from `expand_with` calls (plain `Transformer`: only inside
  list items); the same holds for `expand_document`, `expand_inline`,
  `expand_table_cell` and, in the plain trait, for eleven of the thirteen
  `expand_*` methods (C89).
* an overridden `transform_block` or `transform_heading` (generic trait:
  `transform_inline`) is ignored by `expand_with` at most places (C90).
* `IdGenerator` panics at `u64::MAX` (C04).

*HTML printer*
* attribute values are escaped twice (C25); the label of a custom alert is not
  escaped (C24); a table without rows panics (C30); footnote references inside
  emphasis or links are neither numbered nor printed (C28); an unresolved link
  reference loses its text (C29); footnote links have no target (C97).

*LaTeX printer*
* custom alert label unescaped; an undefined footnote prints a bare `^`; code
  can end its own verbatim environment (C33); definitions nested in footnotes
  are not indexed (C34/C60).

*Markdown printer*
* panics (C37): quotes nested deeper than the width allows (`width - 2`
  underflow), ragged tables, ordered lists running past `u64::MAX` (reachable
  from the parser, C55), an empty ordered list starting at 0;
* inner quotes are laid out with the full configured width (C68);
* the syntax detector misses `>a`, `1)`, `<div>`, `[x]:`, `[^x]:`, `===`, `--`,
  so wrapping can change the structure (C38);
* texts are printed unescaped, so the round trip fails (C41); tables and fenced
  code in list items are printed without indentation; blank lines inside list
  items get trailing blanks, so a block behind a nested list with a narrower
  marker becomes part of that list (C41); ATX headings and indented code inside quotes do
  not round-trip; footnote definitions are printed without indenting their
  continuation lines (C41).

*Parser*
* running time and the number of hook calls are exponential in the nesting
  depth: n `>` before a letter call the text hook at least 2^n times, n+1 `[`
  at least 8^n times (C84; fifteen brackets suffice to hang the parser);
* a reference link without label carries a second copy of its text, so nested
  escaped brackets make a document exponentially larger than its source, and
  ragged tables are padded to quadratic size (C99);
* hooks also run for attempts that are given up, so a collecting hook sees
  duplicates: `[a]` shows its text five times (C84);
* HTML blocks of kinds 6 and 7 keep their final line feed, and a backslash at
  the end of a link destination escapes the line feed behind it (C82);
* block_heading_v2_behavior governs ordinary paragraphs; block_paragraph_behavior
  only single lines left over (C52); environment variables bypass the text
  switch and hooks (C52); Map/FlatMap hooks for GitHub alerts are not run (C63);
  the emphasis hook runs once for `***x***`;
* `[!NOTES]` is not an alert (C54); backslash escapes work only at the start of
  a text piece (C64); `> # x` is not a heading, ATX headings allow no
  indentation (C65); `- - -` is not a thematic break;
* a code span's closing run may match inside a longer run of ticks; an unclosed
  fence is a paragraph; `[a]()` is not a link; link destinations keep their
  backslashes while titles decode them; trailing blanks, or text after the
  title, void a link definition;
* html_block7 accepts only one character in quoted attribute values; tags of
  html_block6 with a listed proper prefix (basefont, colgroup, frameset, header,
  link, menuitem, param, thead, track) are never matched; any raw end tag closes
  any raw HTML block;
* a list item swallows following unindented lines, including fences, tables,
  definitions and items with another marker; its continuation check excludes
  same-kind markers even without a following space.
* the Markdown printer wraps the labels of reference links, and the HTML and
  LaTeX printers match labels by their parsed texts in which a line break is
  not a space: formatting a document can make a reference unresolvable, and the
  HTML printer then drops the link together with its text (C103).
