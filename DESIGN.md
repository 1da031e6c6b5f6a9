# DESIGN — a formal model of Qlue-ls in Rocq (Coq 8.16.1)

Sources: `/repo` (rust) at the pinned commit, read as text, never built.
Build: `cd rocq && coq_makefile -f _CoqProject -o Makefile && make -j4`.

## 1. Trusted base

* Coq 8.16.1's kernel (including its `vm_compute` reduction machine, used for the finite
  table checks) and the Coq standard library. No plugin, no axiom: every property theorem is
  printed with `Print Assumptions` in `Audit.v` and each one prints *Closed under the global context*
  (re-run by every build).
* The reading of the code: each definition of a `*Model.v` file cites the file and lines it
  models. The model is hand written, except three files generated mechanically from the
  sources by `tools/grammar2coq.py` (which rejects any source form it does not know):
  `Kinds.v` (from `syntax_kind/generated.rs`), `GrammarData.v` (statement by statement from
  `parser/grammar.rs`, 158 functions) and `UngramData.v` (from the `.ungram` grammar file).
  The generator is *not* trusted for the theorems about the data, but it is trusted for the
  claim that the data is the code. `LexerData.v` is generated the same way by
  `tools/lexer2coq.py` from the logos attributes (Unicode tables for `\d`, `\s` and simple case
  folding are those of Python's `unicodedata`). `FormatData.v` (the separator table and the
  keyword list of the formatter) is generated by `tools/format2coq.py`.
* The formatter model was validated by running it (`vm_compute`) on the repository's own
  formatting cases: 122 of 123 reproduce; the remaining one (`emojis`) differs only because
  `unicode_width` is a parameter (`width`) of the model.
* logos is read by its documentation: longest match over all definitions, an error token of at
  least one character where nothing matches. Its priority rules never matter (C33).
* Rust semantics as read: integers are unbounded (`nat`/`N`) unless a definition says
  otherwise (`u8` counters and `u32` deltas are modelled with their bounds where the property
  is about them), panics and failed asserts are explicit outcomes, `HashMap`s are association
  lists / functions, `String`s are lists of Unicode scalar values with explicit UTF-8 and
  UTF-16 lengths.

Style: `XModel.v` — executable model, no proofs. `XSpec.v` — what the English says, written
without the model's loops. `XProofs.v` — lemmas. `XProps.v` — only the property theorems, a
concrete witness (`Cnn_witness`) meeting the hypotheses of each.
A property that is false of the code is stated as `Cnn_..._refuted` with the witness, next to
the strongest true form.

## 2. Per property

| id | what is modelled | how it is proved |
|----|------------------|------------------|
| C01 | `TextDocumentItem::apply_content_changes` as the one-pass cursor machine it is | simulation: cursor invariant (`cursor = position_after (prefix read)`), induction over scanned characters; spec = "replace between denoted places" |
| C02 | same machine on positions that do not exist | false: both failure modes characterised for all texts |
| C03, C04 | `Position::from_byte_index`, `Position::byte_index` | induction on the text, prefixes as specification; `\r` and surrogate counterexamples |
| C05, C06 | `apply_text_edits` (sort, backward cursor, final newline) | backward-cursor invariant; spec = simultaneous splice of the original text |
| C07, C08 | `ServerState` document map, version counter, parse-tree cache | invariant over all operation sequences |
| C09 | `StdioMessages` byte reader and `send_message` | fold over bytes; induction on the message list |
| C10, C11, C28, C29, C30, C31 | `ServerModel.v`: JSON-RPC envelope, method table, error replies, lifecycle, document sync and backend handlers; bodies of the language features are universally quantified parameters (`features`) that may answer, fail or panic | step function on JSON messages, invariants over all message histories |
| C32 | `merge_value`, `merge_settings` | induction on key paths |
| C12–C15, C18 | the event parser interpreting the transcribed `grammar.rs`, `remove_empty_nodes`, `build_tree` | refinement of the event machine to a tree-producing big-step semantics; then structural induction; rank tables checked by `vm_compute` for termination |
| C16, C17 | `grammar.rs` against the `.ungram` grammar | `denote : stmt -> gexp` equals the grammar (checked for all 158 rules), LL(1) tables checked for closure by `vm_compute`; soundness and completeness by induction |
| C19 | `guess_operation_type` | case analysis over the first keyword in the token list |
| C20, C21 | semantic token collection and delta encoding | decode∘encode = id; UTF-8/UTF-16 counterexample |
| C22, C23 | the streaming result reader byte automaton (`usize` is 32 bit as on wasm32; `serde_json::from_slice` is a universally quantified partial function) | simulation against an inductive JSON text grammar |
| C24 | the N-Triples state machine over the tokens the (unmodelled) logos tokenizer yields | induction over token lists, statements of four tokens as specification |
| C25, C33, C36 | the logos lexer as maximal munch over the 182 regular expressions of `generated.rs` (`tools/lexer2coq.py` translates them into `LexerData.v`; length of error tokens universally quantified) | induction over the text; partial derivatives with a certified product construction for disjointness |
| C34, C35 | the same, against the terminals and keywords of the W3C grammar transcribed by hand in `LexerSpec.v` | certified language inclusion by derivatives, counterexamples by computation |
| C37–C40 | the whole formatter (`FormatModel.v`: tree walk, separators, augmentations, comments, empty lines, transform/consolidate/merge; `FormatText.v`: lexer, parser and formatter together); `contract_triples` is not modelled | edits of a tree pairwise compatible and only across blanks, by induction over the tree; order of equal places through the sorts; then token by token (`FormatWeave.v`); trees of the parser and tokens of the lexer meet the hypotheses (`FormatParse.v`, `FormatLex.v`). C39: comments are attached to edges between tokens and each is put in front of an edit that starts there; invariant of merge_comments over pieces with comments (`FormatComments.v`, `FormatArrange.v`, `FormatWoven.v`, `FormatMerged.v`, `FormatKept.v`, `CommentProps.v`) |
| C41, C42 | `find_variable_occurrences` with its union-find, `visible_variables` of the AST, references, highlight, rename (`TreeModel.v`, `VarModel.v`) on the tree of the parser | union-find correctness; scopes as paths; the shape of the parser's trees (`TreePlace.v`, `TreeShape.v`); specification `VarSpec.v` is an equivalence closure over scopes |
| C43, C44 | the rename of C42 followed by the lexer of C25 and the parser of C12 on the edited text. The client applies the edits, so the new text is `splice` (all edits at once) and not the server's `apply_text_edits` | maximal munch around a renamed token (`LexRename.v`); the parser sees kinds only and treats `?x` and `$x` alike, a simulation between the two runs (`TreeRename.v`); which trees stand below which (`TreeKids.v`); scopes of the renamed tree (`RenameScope.v`) |
| C45–C54 | the diagnostics and the parts of the AST they use (`DiagModel.v`); messages and severities are left out, the prefix map is a parameter, the iteration order of the hash map in `same_subject` is any permutation; `auto_fix_prefixes` is not modelled | which children the parser gives a node, in which order, checked per grammar rule and lifted to all runs (`TreeItems.v`, `AstFacts.v`); each diagnostic is characterised by a predicate on the tree (`DiagSpec.v`): exactly one per node that satisfies it |
| C55, C56 | on-type formatting (`OnTypeModel.v`): the checks at the cursor, the indentation and the edit; the display width of a character is a parameter | re-lexing after a change of blanks (`LexLayout.v`: every token is still the longest match), then C58 for the tree |
| C57 | folding ranges (`OnTypeModel.v`) | positions of nodes of the tree (`VarDoc.v`) |
| C58 | the parser and the tree builder of C12–C19 | the run depends on the significant kinds only; whitespace and comments are placed around it (`TreePlace.v`) |
| C59 | parse_tree.rs: the recursive conversion with the position cursor (`ParseTreeModel.v`) | induction over the tree: the cursor is `position_after` of the text before the element; ranges via C01's `denotes` |
| C60 | jump/mod.rs: the cursor through the edits, places of interest, the target, the insertion (`JumpModel.v`); the formatter is that of C37–C40, the second parse is a parameter constrained to return the tree of its text | the offset map against `splice` of the edits (`shift_moved`); places against an inductive specification `stop` |
| C61 | quickfix.rs: the quick fixes for prefixes (`QuickFixModel.v`); title, kind and diagnostic of a code action are left out, the prefix map is a parameter | text before the first token (`LexInsert.v`), the parser's run on a longer prologue (`PrologueRun.v`, `PrologueSwap.v`), prefixes of the bare tree (`QuickFixFacts.v`) |
| C62 | quickfix.rs remove_prefix_declaration, rowan's covering_element and next_token (`QuickFixModel.v`) | the node at the range (`CoverFacts.v`), the tokens of a text without a piece of the prologue (`RemoveFacts.v`), the number of declarations of a prefix (`DeclCount.v`), the parser's run on a shorter prologue (`PrologueSwap.v`) |
| C63 | quickfix.rs shorten_uri, analysis.rs namespace_is_declared (`QuickFixModel.v`); the prefix map (curies: find_by_uri and compress) is a parameter | tokens left of a changed place (`LexMiddle.v`), prefixed names and what follows them (`ShortenFacts.v`), the tree of a grammatical document is its derivation, so a node can be exchanged (`Replant.v`) |
| C64 | auto_fix_prefixes.rs (`QuickFixModel.v` auto_fixes); the capability check and the request number are left out | the text as a run of declarations with what follows each; taking out several and putting others in front, from the lexer up (`AutoFacts.v`, `AutoProps.v`) |
| C65 | select.rs code_actions; mod.rs generate_code_actions, this action only (`SelectModel.v`) | the edits at the line feeds as one splice (`SelectFacts.v`), indentation keeps the tokens (`LexLayout.v`), the new query derives and replaces the old one (`Replant.v`, `SelectProps.v`) |
| C66 | add_to_result.rs; mod.rs generate_code_actions, this action only (`ResultModel.v`) | the clause with one more column derives and the tokens of the result are those (`ResultFacts.v`, `ResultProps.v` column_added), then the tree is the old one with it (`Replant.v`) |
| C67 | add_aggregate_to_result.rs (`ResultModel.v`) | the seven texts are lexed up to the end of the variable's name, which stands for any name (`AggregateProps.v` known_lex), then as C66 |
| C68 | filter_var.rs, filter_var_lang.rs, Var::triple (`FilterModel.v`) | a block of triples cut behind a triple derives as two blocks, with the filter between them the group derives (induction over the nesting of blocks, `FilterProps.v`); tokens as in C66, the tree by `Replant.v` |
| C69 | add_label.rs, PropertyListPath::properties (`LabelModel.v`) | the ends of nodes are places in the text; the two edits as one splice (`LabelProps.v`) |
| C70 | same_subject.rs (code action), indent.rs (`LabelModel.v`) | the groups as in C52; no triple is in another (closure of the callers of a block of triples), so the alignment looks at the triple itself (`LabelProps.v`) |
| C26 | `Range::overlaps` | linear arithmetic |
| C27 | derivation trees of the `.ungram` grammar against the returned tree | LL(1) tables; by-product of C17 |

## 3. Not modelled

JSON (de)serialisation by serde, HTTP/SPARQL endpoints and their contents, tera templates,
WASM glue, logging, the async scheduler (each handler runs to completion under the state
lock), rowan's internal representation (a tree is a tree), YAML/TOML settings files.
