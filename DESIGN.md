# Design

Subject: djc/askama, read as text at the pinned commit in `/repo`. Nothing of it is compiled or run here.

## Layout

* `rocq/theories/*.v` – model files (definitions, each citing the source lines it mirrors), specification files (`*Spec.v`,
  `RefSem.v`, `Scoped.v`), proof files (`*Facts.v` and others), and `Prop_*.v` files with the property theorems, each followed by
  `Print Assumptions` and an example that meets its hypotheses.
* `properties.jsonl` – the properties in English. `MANIFEST.json` – property, status, theorem names.
* `seeded/LOG.jsonl` – edits of the model the way a bug would change the program, and which theorems noticed.

## The model

| model | source |
|-------|--------|
| Escape.v | askama_escape/src/lib.rs |
| Filters.v | askama/src/filters/mod.rs, json.rs |
| Loop.v | askama/src/helpers.rs |
| Api.v | askama/src/lib.rs (Template, DynTemplate), the generated Display, the web crates |
| Config.v | askama_derive/src/config.rs, the attribute handling of input.rs, strip_common of askama_parser/src/lib.rs |
| Nom.v | the nom 7 combinators in use, with nom's outcomes Ok, Error, Failure |
| Lex.v, ParseExpr.v, ParseNode.v, Ast.v | askama_parser/src/lib.rs, expr.rs, node.rs |
| Heritage.v | askama_derive/src/heritage.rs and find_used_templates of input.rs |
| Ident.v, GenExpr.v, Gen.v, Ws.v | askama_derive/src/generator.rs |
| Derive.v | askama_derive/src/lib.rs (derive_template, build_skeleton, build_template), read_config_file of config.rs, fallback and extension_to_mime_type of input.rs |
| Sem.v | not askama: what the generated Rust statements do when they run |
| RefSem.v | not askama: what a template means, independently of the generator |

Conventions:

* A character or byte is an `N`; a Rust `str` is a list of characters where only character-level operations are used
  (parser, whitespace, generator) and a list of bytes where byte offsets matter (escaping, truncate, json, url).
  `Utf8.v` gives the encoding and what a char boundary is, and connects the two views.
* `&mut` state becomes state passing; `Result` stays data; a panic (index, assertion, overflow of the generator's `u8`,
  slicing off a char boundary) is an explicit result, never a default.
* Loops are structural recursion. Recursions without a structural argument take fuel and return an explicit out-of-fuel
  value, and either a theorem shows that it is not reached or the statement excludes it.
* Generated Rust code is a statement tree, one constructor per kind of emitted statement, not text, except the format strings
  of `write!`, which are text because brace escaping is a property. Its meaning (Sem.v) is an interpreter in which values and
  primitive operations are parameters (a `world`).
* Repository tests run on the model: `ParseTests.v` (parser tests) and `RepoTests.v` (templates of testing/). They are tests of
  the model, not proofs.

Not modelled: the text layout of the generated code; spans, rerun-if-changed bookkeeping and the printing of the syntax tree;
the TOML parser and `syn` (their results are inputs); the file system except as a function from paths to contents; the filters
that only forward to another crate (filesizeformat, into_f64, into_isize, abs).

## Properties

For each: what is modelled; how it is proved; the theorems. `_partial` and `_refuted` are explained beside the theorem and in `MANIFEST.json`.

**C01 HTML escaping leaves no active markup** (proved). Model: Escape.v: the byte loop of the HTML escaper with `last`, `index` and slices that can fail, EscapeWriter, MarkupDisplay. Proof: loop invariant; the loop is shown equal to a per-character table, from which the absence of active markup follows.
Theorems: `C01_html_output_inert`. Note: for all valid UTF-8 pieces; the byte loop with its slices is modelled, slicing never panics.

**C02 HTML escaping is lossless** (proved). Model: Escape.v; an independent decoder of entities. Proof: the decoder undoes the table, by induction on the text.
Theorems: `C02_html_lossless`. Note: an independent entity decoder recovers the text.

**C03 Escaping does not depend on how the value writes itself** (proved). Model: Escape.v: a value writes itself in arbitrary pieces. Proof: the escaped pieces concatenate to the escape of the concatenation.
Theorems: `C03_escape_chunk_independent`, `C03_same_text_same_output`.

**C04 Unescaped contexts output text verbatim** (proved). Model: Escape.v: the `Text` escaper and `Safe` values. Proof: the pieces are passed on one by one.
Theorems: `C04_text_verbatim`, `C04_safe_verbatim`.

**C05 Every expression is escaped unless its outermost filter opts out** (proved). Model: Gen.v/GenExpr.v: the wrapping decision in `visit_filter` and `write_buf_writable`; Sem.v runs the write. Proof: FlushFacts.v: every merged write renders the concatenation of its parts, each escaped unless its outermost filter is `safe`/`escape`.
Theorems: `C05_every_write`, `C05_unknown_escaper`, `C05_in_template_partial`. Note: for every write the generator merges from text and expressions, without exception; the statement about whole templates needs scoped templates.

**C06 truncate cuts at a character boundary and marks the cut** (proved). Model: Filters.v on bytes with char boundaries (Utf8.v). Proof: arithmetic on boundaries.
Theorems: `C06_truncate`. Note: byte-level writer state machine, any chunking.

**C07 indent only inserts spaces after inner newlines** (proved). Model: Filters.v. Proof: induction on the text against FilterSpec.v.
Theorems: `C07_indent`, `C07_indent_limit`.

**C08 trim removes exactly the surrounding white space** (proved). Model: Filters.v. Proof: induction on the text; white space is a parameter.
Theorems: `C08_trim`, `C08_trimmed_unique`, `C08_trim_error`, `C08_white_space`.

**C09 join interleaves the separator** (partial). Model: Filters.v: the Display of a consumed iterator. Proof: induction; the second display is a counterexample.
Theorems: `C09_join`, `C09_join_error`, `C09_join_twice_refuted`. Note: first display proved; the claim that a joined value can be shown twice is refuted (the second display is empty).

**C10 line-break filters account for every line** (partial). Model: Filters.v: `replace` of str modelled as leftmost non-overlapping replacement. Proof: induction against FilterSpec.v; counterexamples for paragraphbreaks.
Theorems: `C10_linebreaks`, `C10_linebreaksbr`, `C10_no_newline_left`, `C10_paragraphbreaks_partial`, `C10_empty_paragraph_removed_refuted`, `C10_text_kept_refuted`, `C10_tags_kept_refuted`. Note: linebreaks and linebreaksbr proved; paragraphbreaks proved for text without an empty paragraph tag, an opening paragraph tag at the end of a paragraph or a closing one at the start of one, each of which is refuted; two documented promises of paragraphbreaks refuted.

**C11 urlencode output is URL-safe and decodable** (proved). Model: Filters.v: percent encoding table. Proof: decoder defined independently, induction.
Theorems: `C11_urlencode`, `C11_urlencode_strict`. Note: percent-encoding crate is a small explicit model.

**C12 json output is safe in HTML and denotes the same JSON** (proved). Model: Filters.v: the JSON post-escaper. Proof: serde_json's output is a parameter; induction on bytes.
Theorems: `C12_json_html_safe`, `C12_json_same_meaning`, `C12_json_lossless`, `C12_json_unchecked_sound`. Note: serde_json's text is any text that never puts one of the four characters after an unescaped backslash.

**C13 case and layout filters** (proved). Model: Filters.v: capitalize, center, wordcount, upper/lower with case tables as parameters. Proof: induction against FilterSpec.v.
Theorems: `C13_capitalize`, `C13_title_word`, `C13_title_blank`, `C13_wordcount`, `C13_center`. Note: Unicode case tables are parameters; lower and upper are std calls.

**C14 loop variables are exact** (proved). Model: Loop.v: an iterator is an arbitrary state machine; Enumerate, Peekable, TemplateLoop. Proof: induction on the number of `next` calls.
Theorems: `C14_loop_item`, `C14_loop_all`, `C14_loop_attrs`. Note: TemplateLoop over an iterator model; index wrap-around of usize not modelled.

**C15 plain text passes through as is** (proved). Model: Nom.v, Lex.v, ParseNode.v. Proof: the literal parser stops exactly at the first delimiter (TextFacts.v).
Theorems: `C15_plain_text_parses`, `C15_plain_text_output`. Note: for every valid set of delimiters.

**C16 raw blocks are verbatim** (proved). Model: ParseNode.v: raw blocks. Proof: TextFacts.v: the search for the endraw tag; output by Ws.v.
Theorems: `C16_raw_block`, `C16_raw_block_anywhere`, `C16_raw_output`. Note: for every valid set of delimiters whose block end does not begin with a blank, a marker or an identifier character.

**C17 comments nest and vanish** (proved). Model: ParseNode.v: the comment scanner with its depth counter. Proof: CommentFacts.v: equivalence with a relation `closes` that says which end balances; Prop_Comment.v: contexts, heritage and generator commute with recomment, which changes the texts of comments.
Theorems: `C17_comment`, `C17_nested`, `C17_unbalanced`, `C17_end_unique`, `C17_content`, `C17_project`. Note: for every valid set of delimiters; a comment without a marker must not begin with a marker character.  C17_content says that the generated code does not depend on what comments say, C17_project the same for the whole macro, with one function giving the new texts.

**C18 operator precedence and associativity are Rust's** (partial). Model: ParseExpr.v; PrecSpec.v: how a tree is written and which parentheses Rust needs. Proof: PrecRound.v: induction on the tree; for every level of the expression grammar the parser consumes exactly the text of an operand of that strength, given what may follow.  ExprFacts.v: induction on the nesting limit, every result of a layer binds at least as strongly as the layer (C18_parsed_operands), and a number literal in an expression never carries a sign.
Theorems: `C18_precedence_partial`, `C18_unambiguous_partial`, `C18_parsed_operands`, `C18_depth_refuted`. Note: every parsed operator expression of every template obeys the precedences (no bound); reading back what is written is proved for every operator tree within the nesting limit of the parser (15 levels per pair of parentheses, one per prefix operator, 128 in all); beyond it the claim is refuted.

**C19 the parser always answers** (proved). Model: all parsers, with `PStuck` for exhausted fuel and out-of-range slices. Proof: NomFacts.v, ExprFacts.v, NodeFacts.v: every parser consumes input and never gets stuck.
Theorems: `C19_always_answers`. Note: recursion of Node::many and of the expression parser is bounded by 128 in the model and that bound is proved never to be exhausted.

**C20 parse errors point at the offending place** (partial). Model: ParseNode.v: the error report of `Ast::from_str`. Proof: line counting lemmas; counterexample at line starts.
Theorems: `C20_error_position_partial`, `C20_error_position_refuted`, `C20_after_line_feed`. Note: right unless the position is at the start of a line; there the end of the line before is reported.

**C21 the nesting limit counts nesting only** (partial). Model: ParseNode.v: `State.level` with nest and leave. Proof: invariants of the level along the parser; counterexample with a trailing comma in a pattern.
Theorems: `C21_siblings_partial`, `C21_written_siblings`, `C21_level_never_drops`, `C21_siblings_refuted`. Note: a trailing comma in a pattern raises the level for all later siblings.

**C22 break and continue only inside loops** (proved). Model: ParseNode.v: `loop_depth`. Proof: invariant of the node parser over all positions of a node (TreeSpec.v).
Theorems: `C22_break_in_loop`.

**C23 call arguments are well formed** (proved). Model: ParseExpr.v: `arguments`. Proof: invariant: well-formed results (ParseSpec.v).
Theorems: `C23_call_arguments`, `C23_no_other_named_arguments`.

**C24 accepted literals are valid** (partial). Model: Lex.v: num_lit, str_lit, char_lit. Proof: inclusion of the accepted language in the grammar of LitSpec.v; counterexamples.
Theorems: `C24_numbers`, `C24_strings_partial`, `C24_chars_partial`, `C24_in_templates_partial`, `C24_strings_refuted`, `C24_chars_refuted`. Note: numbers proved; strings and characters accept text Rust rejects.

**C25 accepted custom delimiters are unambiguous** (partial). Model: Config.v: Syntax validation. Proof: prefix lemma: unrelated delimiters never match at the same place.
Theorems: `C25_accepted_iff_valid`, `C25_config_syntaxes_valid`, `C25_unambiguous`, `C25_two_characters_refuted`. Note: the two-character minimum is counted in bytes, which refutes that clause.

**C26 whitespace control is local and exact** (proved). Model: Ws.v: the `next_ws`/`skip_ws` machine; FlatSpec.v for whole templates. Proof: WsFacts.v: equality with a declarative rule per text; FlatFacts.v: the template put together has the text that the rule gives to the flattened sequence of tags and texts.
Theorems: `C26_whitespace_local`, `C26_blanks`, `C26_split`, `C26_whole_template`, `C26_written`. Note: for the sequence of literals and tags the generator visits, and for whole sets of templates with branches, macros, blocks and includes; C26_written is about the output of the generated code of templates without expressions or choices.

**C27 conflicting whitespace controls resolve suppress > minimize > preserve** (partial). Model: Ws.v. Proof: case analysis; two counterexamples.
Theorems: `C27_preference_partial`, `C27_preference_refuted`, `C27_inline_over_default_refuted`. Note: proved when the left marker is not a minimize over a blank literal; otherwise refuted.

**C28 whitespace default: attribute over config file over preserve** (proved). Model: Config.v. Proof: case analysis.
Theorems: `C28_whitespace_default`, `C28_bad_whitespace`.

**C29 rendering equals the template's meaning** (partial). Model: Parser, Heritage.v, Gen.v (generator), Sem.v (what the generated code does), RefSem.v (what a template means). Proof: simulation. GenElab.v: the generator follows the template put together; SimRel/SimBuf/SimNode/SimCtl/SimScope: scopes and pending output correspond; Sim.v: the code renders what the template means. Assumes `scoped` (Scoped.v, a boolean function on templates) and the seven laws `world_ok`.
Theorems: `C29_rendering_partial`, `C29_source_partial`, `C29_built_in`. Note: proved for every template whose variables capture no name used in another sense (scoped); without that it is false, see the refutations of C31, C32, C33, C34, C37.

**C30 braces and special characters in text survive code generation** (proved). Model: Gen.v: format strings as text, with brace doubling; Sem.v parses them back; GenText.v: Debug formatting of strings; the value of a string literal: StrSpec.v. Proof: FlushFacts.v; Prop_Rust.v: induction on the text, reading back hexadecimal escapes.
Theorems: `C30_text_unchanged`, `C30_literal`. Note: for every write the generator merges from text and expressions; the string literal in the generated text stands for exactly the text.

**C31 let shadows only from its own position on** (partial). Model: as C29. Proof: instance of the simulation stated on let and its scope; counterexamples by running source text.
Theorems: `C31_let_partial`, `C31_let_before_refuted`, `C31_declared_then_pattern_refuted`, `C31_let_in_block_refuted`. Note: proved for scoped templates; refuted in general, e.g. for a field shown before a let of the same name.

**C32 macro arguments bind parameters to the caller's values** (partial). Model: as C29; Gen.v `write_call`. Proof: CallFacts.v: which calls are accepted and the pairing of arguments; values by the simulation; counterexamples.
Theorems: `C32_only_fitting_calls`, `C32_pairing`, `C32_values_partial`, `C32_swapped_arguments_refuted`, `C32_later_parameter_refuted`, `C32_let_in_macro_refuted`, `C32_loop_counter_refuted`, `C32_keyword_parameter_refuted`, `C32_let_parameter_refuted`. Note: which calls are accepted and which argument goes to which parameter is proved for all calls; the values for scoped templates; six ways in which a parameter does not have the caller's value.

**C33 a filter block filters its whole body and nothing else** (partial). Model: as C29; `write_filter_block`. Proof: instance of the simulation; counterexamples.
Theorems: `C33_filter_block_partial`, `C33_empty_filter_block_refuted`, `C33_tags_in_filter_block_refuted`, `C33_let_in_filter_block_refuted`. Note: proved for scoped templates; refuted for empty bodies and bodies with tags.

**C34 the most derived block definition is rendered** (partial). Model: Heritage.v: Context::new, Heritage::new; Gen.v `write_block`. Proof: induction on the chain against HeritageSpec.v.
Theorems: `C34_context`, `C34_base_template`, `C34_most_derived`, `C34_block_sees_outer_let_refuted`. Note: which definition is rendered is proved for every chain; refuted: a block can see variables of the template around it.

**C35 super() renders the next definition up the chain** (proved). Model: Heritage.v, Gen.v `super()`. Proof: induction on the chain.
Theorems: `C35_next_definition`, `C35_no_definition`. Note: for every chain of parents.

**C36 block fragments render exactly the block** (partial). Model: Gen.v: `impl_template` with a block argument, `discard` flags; FragSpec.v: what a fragment is (the block alone, put together by the reference semantics) and which templates are covered. Proof: FragFacts.v: while both discard flags are set nothing is written and nothing waits (induction over fuel and nodes), the block itself is generated as in a template of its own and the blocks around it add nothing (induction over them), then the simulation of C29; counterexamples for the rest.
Theorems: `C36_fragment_partial`, `C36_source_partial`, `C36_other_block_refuted`, `C36_block_in_loop_refuted`, `C36_block_in_if_refuted`, `C36_no_such_block_refuted`, `C36_filter_block_refuted`, `C36_included_block_refuted`, `C36_nested_block_refuted`. Note: Proved for a block at the top of the base template or, there, inside of any number of other blocks, surrounded by text, expressions, comments, definitions and other blocks (inside of other blocks only before it): with block = x the code writes exactly what the block alone means. Missing: the block inside of an if, loop, macro or included template, and lets, control flow, calls, includes or filter blocks beside it. The full statement is false (refuted seven ways, one of them for other tags after a block inside of a block)..

**C37 include renders the found template in the current scope** (partial). Model: Gen.v `handle_include`. Proof: instance of the simulation; which file is found; counterexamples.
Theorems: `C37_scope_partial`, `C37_included_file`, `C37_include_leaks_refuted`, `C37_relative_include_refuted`. Note: proved for scoped templates; which file is included is proved for all; refuted: a variable leaks, and paths are relative to the derived template, not the including one.

**C38 variables resolve to the innermost binding** (partial). Model: Ident.v: MapChain, normalize_identifier. Proof: against a specification of scopes as stacks; 64-bit table of keywords checked by computation.
Theorems: `C38_innermost_binding`, `C38_pop_panics_iff_unbalanced`, `C38_variable_text`, `C38_keywords_raw`, `C38_names_stay_distinct`, `C38_raw_identifier_legal_partial`, `C38_raw_identifier_legal_refuted`. Note: resolution proved for every scope history; the keyword crate becomes an illegal raw identifier.

**C39 the else part of a for loop runs iff no iteration ran** (proved). Model: Gen.v `write_loop`; Sem.v. Proof: the code of every loop, by induction on the items.
Theorems: `C39_loop_code`, `C39_else_runs`, `C39_else_does_not_run`, `C39_in_template_partial`. Note: for the code of every loop; the statement about whole templates needs scoped templates.

**C40 template expansion terminates** (partial). Model: Heritage.v and Gen.v with expansion depth as fuel. Proof: worklist measure for the search; EndSpec.v: which bodies are expanded in a body, EndFacts.v: one induction over the nodes shows both that expansion ends if no chain of bodies is endless and that generated code implies it; for cycles: no depth suffices, by induction on the depth.
Theorems: `C40_search_ends`, `C40_context_ends`, `C40_parents_end_partial`, `C40_self_extends`, `C40_expansion_ends_partial`, `C40_compiled_ends`, `C40_cycle_not_compiled`, `C40_ranked_partial`, `C40_filter_name_found`, `C40_extends_cycle_refuted`, `C40_include_cycle_refuted`, `C40_block_cycle_refuted`. Note: search and contexts always end; expansion ends whenever no template is its own ancestor and no body of a template, block or macro leads back to itself, and that is needed for code to be generated; as stated refuted: extends cycles of length two, include cycles and blocks that contain each other through super() never end.

**C41 deriving never panics** (partial). Model: every panic of the generator is the explicit result `GPanic`: indentation overflow, missing block, unwraps, MapChain::pop, assertions. Proof: PanicGen.v: an invariant for every node; PanicTop.v: from parsed sources on; counterexamples for each condition; Prop_Derive.v: the whole macro, together with C60.
Theorems: `C41_macro_partial`, `C41_no_panic_partial`, `C41_search`, `C41_block_in_macro_refuted`, `C41_block_in_filter_refuted`, `C41_nesting_refuted`, `C41_text_nesting_refuted`, `C60_macro_refuted`, `C60_crate_refuted`. Note: no panic for every set of templates with blocks outside macros and filter blocks, include names that mean the same everywhere and bounded nesting; each condition is needed (refutations); the generated text is then parsed with unwrap: that this does not panic is C60; C41_macro_partial puts both together for the whole macro, from the attributes on.

**C42 repeated expressions are merged only when that is invisible** (partial). Model: GenExpr.v `is_cacheable`, `named_expression`, `prepare_format`; Effect.v: evaluation where calls read and change a state of any type. Proof: EffectFacts.v: an expression without calls neither reads nor changes the state; loop invariant comparing the merged write with evaluating every occurrence; counterexample for filters of the user.
Theorems: `C42_merging_partial`, `C42_candidates`, `C42_custom_filter_refuted`, `C42_filter_call_lost_refuted`, `C42_parameter_refuted`. Note: proved for every write and arbitrary effects of calls; refuted for filters of the user, which count as call-free and for macro parameters that stand for an attribute of a call.

**C43 every used template is found and loaded once** (partial). Model: Heritage.v `find_used_templates`. Proof: UsedFacts.v: worklist invariant; counterexample.
Theorems: `C43_used_templates_partial`, `C43_self_import_refuted`, `C43_inline_replaced_refuted`. Note: exactly the reachable files, each listed once with its own contents; loaded once is refuted for a template that refers to itself; a template in the attribute is replaced by a file with the path made up for it.

**C44 template lookup order** (proved). Model: Config.v: find_template over an arbitrary set of files. Proof: induction on the directories.
Theorems: `C44_lookup_order`. Note: file system and path joining are parameters.

**C45 escaper choice** (proved). Model: Config.v. Proof: induction on the list of escapers.
Theorems: `C45_escaper_choice`, `C45_user_before_builtin`, `C45_builtin`, `C45_none_is_error`, `C45_reported_extension_refuted`. Note: the file's extension here is the one after the last dot, not the reported one.

**C46 extension and content type** (proved). Model: Config.v. Proof: case analysis on the path's components.
Theorems: `C46_extension_plain`, `C46_extension_jinja`, `C46_extension_jinja_only`, `C46_no_extension`, `C46_hidden_file`, `C46_content_type`. Note: mime_guess is trusted; std path splitting is a small explicit model.

**C47 exactly one trailing newline is dropped from a template file** (proved). Model: Config.v. Proof: case analysis on the end of the text.
Theorems: `C47_one_newline_dropped`, `C47_otherwise_verbatim`.

**C48 template attributes** (partial). Model: Config.v: the attribute loop of TemplateArgs::new. Proof: induction on the attribute list; counterexamples.
Theorems: `C48_one_source_partial`, `C48_unknown_key_rejected`, `C48_missing_source_is_error_refuted`, `C48_path_key_is_error_refuted`, `C48_ext_with_path_refuted`, `C48_given_once_refuted`. Note: four clauses are refuted.

**C49 all ways to render agree** (partial). Model: Api.v: a template is any sequence of writes and a result; writers can fail at any point. Proof: induction on the writes.
Theorems: `C49_render`, `C49_render_into_string`, `C49_to_string`, `C49_write_into`, `C49_failing_writer`, `C49_failing_io_writer`, `C49_same_failure_refuted`. Note: same text and prefix on failure proved; same failure refuted for write_into under recent std.

**C50 web framework responses** (partial). Model: Api.v: response builders of the web crates as small records. Proof: case analysis.
Theorems: `C50_success`, `C50_error_partial`, `C50_axum_error_status_refuted`. Note: framework builders are small explicit models; axum sends errors with status 200.

**C51 size hint is only a hint** (proved). Model: Ident.v `median`; Gen.v size computation. Proof: permutation and sortedness; the hint reaches only `with_capacity`.
Theorems: `C51_if_defined`, `C51_match_defined`, `C51_median_defined`, `C51_median_of_nothing_panics`, `C51_hint_has_no_influence`. Note: sizes are unbounded numbers in the model; usize overflow of the hint is not modelled.

**C52 macro calls expand to the body with whitespace of the call** (proved). Model: FlatSpec.v: macro calls in place of their tags. Proof: FlatFacts.v.
Theorems: `C52_macro_call`. Note: calls anywhere: C26_whole_template with fl_call of FlatSpec.v.

**C53 error message path shortening** (partial). Model: Config.v: paths as component lists. Proof: induction on components.
Theorems: `C53_inside`, `C53_suffix`, `C53_only_inside_refuted`. Note: files outside the directory are shown as if inside.

**C54 an expression tag reads back the expression it was written from** (proved). Model: as C18, all expression forms. Proof: as C18, then the expression tag in ParseNode.v (PrecTop.v).
Theorems: `C54_written_is_read`, `C54_written_is_read_anywhere`. Note: for every tree whose operands have the strength their place needs, all expression forms, within the nesting limit stated in the property.

**C55 every Rust literal is read** (partial). Model: Lex.v; LitSpec.v. Proof: LitComplete.v: every form of literal is consumed to its end; counterexamples.
Theorems: `C55_numbers_partial`, `C55_strings`, `C55_chars_partial`, `C55_numbers_refuted`, `C55_chars_refuted`. Note: strings proved; numbers proved but for floats that end in a dot and characters but for underscores in Unicode escapes, which are rejected.

**C56 expressions are evaluated once each, in template order** (partial). Model: Gen.v; Effect.v; EffSem.v: statements and whole templates when calls have effects. Proof: EffOrder.v: by induction over the steps of the generator (GenSteps.v, GenElab.v), running the code with what is pending refines evaluating the template part by part; the pending output by C42; EffRef.v gives the meaning of a template with effects without the generator's scopes, and EffExpr.v, EffAny.v and EffMeaning.v prove that the code does what it says for scoped templates; counterexamples for let, filter blocks and macro arguments.
Theorems: `C56_whole_templates_partial`, `C56_template_meaning_partial`, `C56_in_order_partial`, `C56_let_first_refuted`, `C56_let_overtakes_refuted`, `C56_filter_block_first_refuted`, `C56_argument_again_refuted`. Note: proved for templates with conditionals, matches, loops, blocks, includes, macros, and lets that no pending expression precedes; a let overtakes expressions before it, the body of a filter block too, and an attribute given to a macro is evaluated at each use.

**C57 a template reads back the tree it was written from** (proved). Model: ParseNode.v, ParseExpr.v; the written form in WriteSpec.v. Proof: targets (WriteTarget.v), arguments (WriteExpr.v), single tags (WriteTag.v), then induction on the derivation of the text (WriteRound.v).
Theorems: `C57_template_read_back`, `C57_unambiguous`, `C57_nodes_read_back`. Note: the written form (WriteSpec.v) leaves out one-element tuples, the word with, and trailing commas in patterns, and comments before the first arm of a match; break and continue only occur in loops.

**C58 Rust groups a generated expression as the template grouped it** (partial). Model: GenExpr.v, Gen.v (text of expressions: show); the tokens of an expression and a reader of tokens that follows the Rust Reference: ReadSpec.v; the expressions of the code: GroupSpec.v. Proof: ReadFacts.v: the reader is deterministic, reads exactly the trees whose operands bind strongly enough, and the tokens are the text; GroupFacts.v: the reading of a generated expression moves each & to the first operand; induction on the expression shows the reading is grammatical; GroupGen.v: an invariant of the generator (scopes and pending writes hold such expressions) carries it to every statement of the code; counterexamples.  Where tokens end: TokenSpec.v is the machine of RustText.v keeping its tokens (as many characters as possible in each); TokenFacts.v, TokenRead.v and TokenExpr.v show by induction on grammatical trees that the machine is in the same state after the text and after the text with a blank behind every token; TokenShow.v and RustGen.v show that all generated expressions are made of the tokens this needs.
Theorems: `C58_grouping_partial`, `C58_reading_unique`, `C58_tokens_text`, `C58_reading_tokens`, `C58_token_ends_partial`, `C58_grouping_refuted`, `C58_runs_together_refuted`. Note: proved for every template without a comparison of a comparison, ..= without end, a number as a field that is not an index, an index of a number, or if let with a range or ||; for these it is false (the code is not Rust); the reader works on tokens; that the text is divided into these tokens, none running into the next, is proved for the same templates if their parts can be read by Rust one by one (as in C60), and false for an index of a number.

**C59 a for loop does not move out of the template** (partial). Model: Gen.v (write_loop, iter_how); what belongs to the template value: Prop_Iter.v. Proof: unfolding of the loop; counterexamples.
Theorems: `C59_iteration_partial`, `C59_iteration_refuted`. Note: proved for names, attributes and elements; a field in parentheses is moved, which is refuted.

**C60 the compiler can read the generated code** (partial). Model: GenText.v (every statement as text, the impl blocks of Template, Display and, by feature, the web frameworks, Debug formatting of strings); how Rust divides text into tokens: RustText.v; which parts of templates are Rust by themselves: RustSpec.v. Proof: RustFacts.v: texts that can be read between other tokens are closed under the ways the generator combines them; RustShow.v: every expression, pattern and statement is such a text if its parts are; RustGen.v: an invariant of the generator carries it to the whole code; counterexamples by running the whole pipeline.
Theorems: `C60_lexes_partial`, `C60_name_refuted`, `C60_crate_refuted`, `C60_escape_refuted`, `C60_char_refuted`, `C60_macro_refuted`, `C60_comment_refuted`. Note: proved for every set of parsed templates whose names, literals and macro arguments Rust itself can read; each exception is refuted.

**C61 a failed derivation still implements the traits** (proved). Model: Derive.v: the whole macro, from the attributes of the struct to the text handed to the compiler, with the skeleton for failures; file system, TOML and content types are parameters. Proof: Prop_Derive.v: the skeleton is computed for a struct with unknown name and generics; that it can be read is C60.
Theorems: `C61_fallback`, `C61_same_fallback`. Note: for every struct with a name and generics that can be read, as the compiler provides them.

**C62 the generated code names the files it was made from** (partial). Model: Derive.v `canonical_paths` and `build_source`. Proof: Prop_Derive.v: which files are reachable is C43; counterexample by running the macro in two file systems that differ in the configuration only.
Theorems: `C62_files_partial`, `C62_config_refuted`. Note: proved of the template files; refuted for the file with the configuration, which is not named.

**C63 the generated statements keep to Rust's grammar** (partial). Model: the statement trees of Gen.v; StmtSpec.v says of each kind of statement where Rust allows it. Proof: StmtGen.v: an invariant of the generator with the loop around a node and whether output is discarded; Prop_Stmt.v: counterexamples by running parser and generator.
Theorems: `C63_statements_partial`, `C63_break_refuted`, `C63_break_fragment_refuted`, `C63_else_refuted`, `C63_filter_refuted`, `C63_declaration_refuted`. Note: proved for templates where no break leaves a block, else is last, and choices of patterns are not in declarations and loops with a condition; refuted without each of these.

**C64 calls and filters borrow what they are given** (proved). Model: the expression trees of GenExpr.v; LendSpec.v says what a place is and when an argument is lent. Proof: ExprGen.v: what holds of all results of visit_expr holds of every expression in the code; LendFacts.v: it holds that arguments are lent, since the parser knows no unary *.
Theorems: `C64_arguments_lent`, `C64_bindings_refuted`. Note: the second theorem shows that the property cannot be extended to let and to the arguments of macros, which can move.

**C65 every name in the generated code is bound** (partial). Model: the generated statements of Gen.v; BindSpec.v gives their scopes by the Rust reference and lists the names used but not bound. Proof: BindFacts.v: what visit_expr and visit_target give is closed in any environment that covers the chain of scopes; BindGen.v: an invariant of the generator, namely that the scopes of the generator are covered by the names bound at the place the next statement is written to, and that what is held back is closed there.
Theorems: `C65_names_bound_partial`, `C65_loop_refuted`, `C65_argument_refuted`, `C65_keyword_refuted`. Note: proved for templates that use loop only inside of a loop of the same template, block or macro, whose macro parameters are no keywords, and where no value given to a macro mentions a parameter of that macro; refuted without each of these.  Names inside of the arguments of Rust macros are not looked at.

**C66 format strings fit their arguments** (proved). Model: the generated statements of Gen.v and prepare_format of GenExpr.v; FmtSpec.v gives the grammar of std::fmt and the rules of format_args!. Proof: FmtGen.v: an invariant of the loop of prepare_format (numbers, cache, holes), and a traversal of the generator showing that all format strings come from there.
Theorems: `C66_formats_fit`, `C66_one_reading`. Note: for all trees of nodes, parsed or not; the second theorem says that the grammar of format strings used in the statement gives each string one reading.  What the user writes in the format filter is not looked at.

**C67 the output does not depend on the order of hash maps** (partial). Model: Order.v: the macro of Derive.v with every iterated hash map in any order (a relation between a struct and the texts it may lead to). Proof: OrderFacts.v: the generator looks at contexts and their maps by key only, so contexts that answer alike give the same code (for all templates, by induction on the generator); building contexts and canonical paths commute with permutations.
Theorems: `C67_code`, `C67_success`, `C67_text_partial`, `C67_text_refuted`, `C67_error_refuted`. Note: success and the generated statements are proved independent of all orders; the text is proved the same up to the order of the lines that name the files, and refuted as a whole (they come in the order of a hash map); which of several errors is reported depends on the order as well (refuted).

**C68 no value can put markup into the output** (proved). Model: Gen.v, GenExpr.v, Ws.v, Sem.v, Escape.v; InjectSpec.v: templates that leave the escaping alone, where a piece of output comes from. Proof: InjectGen.v: an invariant on the pending writes and blanks through the whole generator, then induction on the run of the statements; the HTML escaper on any bytes.
Theorems: `C68_writes`, `C68_output`, `C68_active`, `C68_markup`, `C68_no_markup`. Note: for all trees of nodes, parsed or not, and all worlds that meet the law of MarkupDisplay; that filters such as linebreaks or json give text that is escaped again is part of it.  Expressions with Rust macros have no meaning in the model, so runs that reach one are not covered.

**C69 where the templates lie does not matter** (proved). Model: Derive.v, Config.v, Heritage.v, Gen.v, Sem.v; MoveSpec.v: templates, worlds and code at other places. Proof: MoveGen.v: every function of the generator commutes with the move, by induction on the nodes; MoveFacts.v: the same for the search for templates and for running the code.
Theorems: `C69_code`, `C69_output`, `C69_alone`, `C69_project`. Note: std's path functions and the file system are assumed to follow the move for the paths and names of the project (moved_world), which is shown for path functions written on text; the search among the templates is in C69_project.  That names beginning with a slash do not move with the project is shown by an example.

**C70 delimiters and blanks in tags are only spelling** (proved). Model: Derive.v, Config.v, ParseNode.v, Heritage.v, Gen.v; WriteSpec.v: how a tree is written with a syntax. Proof: from C57 both texts are read as the same tree; the search for templates goes through the same states, then the generator gets equal arguments.
Theorems: `C70_spelling`, `C70_macro`. Note: C70_macro is C70_spelling for what the compiler gets from the macro, errors included; for templates in the written form of C57 and for syntaxes whose closing delimiters cannot continue an expression (plain_end, block_end_ok); both projects must be configured without error, alike but for the syntax.  The message of a syntax error is not compared, since written templates have none.

**C71 nothing outside the blocks of a child is rendered** (proved). Model: Heritage.v, Gen.v; Prop_Child.v: silent, thinner and outlined say which nodes may be missing; Prop_Outline.v: mute, leaner and read_alike do so for the texts of a project. Proof: the contexts are equal but for the nodes of templates with a parent, and the generator reads the nodes of the root of a chain only (relation ceq of OrderFacts.v); for projects, the searches run in step, the nodes missing load nothing.
Theorems: `C71_outside_blocks`, `C71_project`, `C71_macro`. Note: C71_outside_blocks is from the trees of the templates on, with the templates to be loaded given.  C71_project and C71_macro are for the whole derive with search and parser, and there the nodes left out contain no include, since the file of an include is loaded by the search (C69) even outside of blocks.  The size hint is part of the code compared.

**C72 what the size hint counts** (partial). Model: GenExpr.v (prepare_format), Gen.v; Prop_Hint.v: Weighs reads a format string by the grammar of std::fmt, Writes adds up statements. Proof: the loop of prepare_format keeps the size equal to the weight of the string built so far; nodes without branches write once, at the end.
Theorems: `C72_one_write`, `C72_straight_partial`, `C72_not_too_much`, `C72_one_number`, `C72_let_refuted`, `C72_include_refuted`, `C72_block_refuted`. Note: complete for templates of text and expressions.  False once there is a let without value, an include or a block: the text before these is written but its size is dropped, as the refutations show.  Templates with branches and loops, where the code takes medians, are not claimed (C51).

**C73 macros that are never called do not matter** (proved). Model: Heritage.v, Gen.v; Prop_Unused.v: calls_known and rewritten say which calls and macros there are; Prop_Dead.v: the same for the texts of a project. Proof: the contexts agree on macros that may be called, and every list of nodes handed to the generator has known calls only; so write_call finds the same macro in both.
Theorems: `C73_never_called`, `C73_project`. Note: C73_never_called is from the trees of the templates on.  C73_project is for the whole macro with search and parser: both texts must be read without error or fail alike, and the bodies include no file, since the search loads these files all the same.  The blank handling of a macro to its outside stays.

**C74 names of macros and import scopes do not matter** (proved). Model: Heritage.v, Gen.v; Prop_Rename.v: rename gives other names in a tree, rename_all in all templates. Proof: contexts, heritage and includes commute with the renaming of the keys of the maps; the generator never looks at a name but to look it up or to compare it with super.
Theorems: `C74_names`, `C74_project`. Note: C74_names is from the trees of the templates on, C74_project for the whole macro with search and parser, for projects whose parsed files differ in these names.  The names that stand in some messages (generator.rs:573-604) are left out of the modelled messages, so for errors the claim is about their kind only.

**C75 names of blocks do not matter** (proved). Model: Heritage.v, Gen.v; Prop_BlockNames.v: bren gives other names in a tree, bren_all in all templates, binp in the argument. Proof: all of the generator commutes with up, which gives the current block in the state its other name; write_block is the only place where the name is used.
Theorems: `C75_block_names`, `C75_project`. Note: C75_block_names is from the trees of the templates on, C75_project for the whole macro with search and parser, for projects whose parsed files differ in these names and in the block argument.  The names that stand in some messages (generator.rs:919-945) are left out of the modelled messages, so for errors the claim is about their kind only.

## Trusted base

* Coq 8.16.1: the kernel and `vm_compute`; no native compilation, no plugin, no kernel check switched off.
* `Print Assumptions` after every property theorem says `Closed under the global context`. The library axioms that a check of
  the compiled files lists, `Coq.ssr.ssrunder.Under_rel.{Under_rel, Under_rel_from_rel, Under_relE, Over_rel, over_rel,
  over_rel_done, under_rel_done}`, belong to the sealed module behind `under` in the standard library's ssreflect; `lia` loads
  it, no theorem here depends on it.
* The reading of the Rust source recorded in the comments of the model files, with the simplifications stated there.
* The behaviour given to code outside of the repository:
  * nom's combinators (`Nom.v`); std's `str`, `char` and iterator functions (in the files that use them); `format!` and `write!`
    (Sem.v interprets the format string and the named arguments);
  * parameters about which nothing is assumed: `char::is_lowercase`, `{:?}` of a string, white space and case tables, serde_json's
    output, the file system, user values, functions and filters;
  * `world_ok` (Sem.v): the seven laws assumed of values in the theorems about rendering: LoopItem's fields, adding one, numbers,
    and that MarkupDisplay displays a safe value as is and an unsafe one escaped (proved of the model in C01–C04);
  * rustc accepts the generated code. Reading a declared but unset variable is the separate outcome `Unset`.
* The statements themselves: the specifications are in `FilterSpec.v`, `LitSpec.v`, `ParseSpec.v`, `TreeSpec.v`, `PrecSpec.v`,
  `HeritageSpec.v`, `FlatSpec.v`, `FragSpec.v`, `PanicSpec.v`, `ReadSpec.v`, `GroupSpec.v`,
  `RustText.v`, `RustSpec.v`, `StrSpec.v`, `RefSem.v` and `Scoped.v`.
