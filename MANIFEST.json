{
 "claims": [
  {
   "property": "C01",
   "status": "proved",
   "theorems": [
    "C01_html_output_inert"
   ],
   "note": "for all valid UTF-8 pieces; the byte loop with its slices is modelled, slicing never panics"
  },
  {
   "property": "C02",
   "status": "proved",
   "theorems": [
    "C02_html_lossless"
   ],
   "note": "an independent entity decoder recovers the text"
  },
  {
   "property": "C03",
   "status": "proved",
   "theorems": [
    "C03_escape_chunk_independent",
    "C03_same_text_same_output"
   ],
   "note": ""
  },
  {
   "property": "C04",
   "status": "proved",
   "theorems": [
    "C04_text_verbatim",
    "C04_safe_verbatim"
   ],
   "note": ""
  },
  {
   "property": "C05",
   "status": "proved",
   "theorems": [
    "C05_every_write",
    "C05_unknown_escaper",
    "C05_in_template_partial"
   ],
   "note": "for every write the generator merges from text and expressions, without exception; the statement about whole templates needs scoped templates"
  },
  {
   "property": "C06",
   "status": "proved",
   "theorems": [
    "C06_truncate"
   ],
   "note": "byte-level writer state machine, any chunking"
  },
  {
   "property": "C07",
   "status": "proved",
   "theorems": [
    "C07_indent",
    "C07_indent_limit"
   ],
   "note": ""
  },
  {
   "property": "C08",
   "status": "proved",
   "theorems": [
    "C08_trim",
    "C08_trimmed_unique",
    "C08_trim_error",
    "C08_white_space"
   ],
   "note": ""
  },
  {
   "property": "C09",
   "status": "partial",
   "theorems": [
    "C09_join",
    "C09_join_error",
    "C09_join_twice_refuted"
   ],
   "note": "first display proved; the claim that a joined value can be shown twice is refuted (the second display is empty)"
  },
  {
   "property": "C10",
   "status": "partial",
   "theorems": [
    "C10_linebreaks",
    "C10_linebreaksbr",
    "C10_no_newline_left",
    "C10_paragraphbreaks_partial",
    "C10_empty_paragraph_removed_refuted",
    "C10_text_kept_refuted",
    "C10_tags_kept_refuted"
   ],
   "note": "linebreaks and linebreaksbr proved; paragraphbreaks proved for text without an empty paragraph tag, an opening paragraph tag at the end of a paragraph or a closing one at the start of one, each of which is refuted; two documented promises of paragraphbreaks refuted"
  },
  {
   "property": "C11",
   "status": "proved",
   "theorems": [
    "C11_urlencode",
    "C11_urlencode_strict"
   ],
   "note": "percent-encoding crate is a small explicit model"
  },
  {
   "property": "C12",
   "status": "proved",
   "theorems": [
    "C12_json_html_safe",
    "C12_json_same_meaning",
    "C12_json_lossless",
    "C12_json_unchecked_sound"
   ],
   "note": "serde_json's text is any text that never puts one of the four characters after an unescaped backslash"
  },
  {
   "property": "C13",
   "status": "proved",
   "theorems": [
    "C13_capitalize",
    "C13_title_word",
    "C13_title_blank",
    "C13_wordcount",
    "C13_center"
   ],
   "note": "Unicode case tables are parameters; lower and upper are std calls"
  },
  {
   "property": "C14",
   "status": "proved",
   "theorems": [
    "C14_loop_item",
    "C14_loop_all",
    "C14_loop_attrs"
   ],
   "note": "TemplateLoop over an iterator model; index wrap-around of usize not modelled"
  },
  {
   "property": "C15",
   "status": "proved",
   "theorems": [
    "C15_plain_text_parses",
    "C15_plain_text_output"
   ],
   "note": "for every valid set of delimiters"
  },
  {
   "property": "C16",
   "status": "proved",
   "theorems": [
    "C16_raw_block",
    "C16_raw_block_anywhere",
    "C16_raw_output"
   ],
   "note": "for every valid set of delimiters whose block end does not begin with a blank, a marker or an identifier character"
  },
  {
   "property": "C17",
   "status": "proved",
   "theorems": [
    "C17_comment",
    "C17_nested",
    "C17_unbalanced",
    "C17_end_unique",
    "C17_content",
    "C17_project"
   ],
   "note": "for every valid set of delimiters; a comment without a marker must not begin with a marker character.  C17_content says that the generated code does not depend on what comments say, C17_project the same for the whole macro, with one function giving the new texts"
  },
  {
   "property": "C18",
   "status": "partial",
   "theorems": [
    "C18_precedence_partial",
    "C18_unambiguous_partial",
    "C18_parsed_operands",
    "C18_depth_refuted"
   ],
   "note": "every parsed operator expression of every template obeys the precedences (no bound); reading back what is written is proved for every operator tree within the nesting limit of the parser (15 levels per pair of parentheses, one per prefix operator, 128 in all); beyond it the claim is refuted"
  },
  {
   "property": "C19",
   "status": "proved",
   "theorems": [
    "C19_always_answers"
   ],
   "note": "recursion of Node::many and of the expression parser is bounded by 128 in the model and that bound is proved never to be exhausted"
  },
  {
   "property": "C20",
   "status": "partial",
   "theorems": [
    "C20_error_position_partial",
    "C20_error_position_refuted",
    "C20_after_line_feed"
   ],
   "note": "right unless the position is at the start of a line; there the end of the line before is reported"
  },
  {
   "property": "C21",
   "status": "partial",
   "theorems": [
    "C21_siblings_partial",
    "C21_written_siblings",
    "C21_level_never_drops",
    "C21_siblings_refuted"
   ],
   "note": "a trailing comma in a pattern raises the level for all later siblings"
  },
  {
   "property": "C22",
   "status": "proved",
   "theorems": [
    "C22_break_in_loop"
   ],
   "note": ""
  },
  {
   "property": "C23",
   "status": "proved",
   "theorems": [
    "C23_call_arguments",
    "C23_no_other_named_arguments"
   ],
   "note": ""
  },
  {
   "property": "C24",
   "status": "partial",
   "theorems": [
    "C24_numbers",
    "C24_strings_partial",
    "C24_chars_partial",
    "C24_in_templates_partial",
    "C24_strings_refuted",
    "C24_chars_refuted"
   ],
   "note": "numbers proved; strings and characters accept text Rust rejects"
  },
  {
   "property": "C25",
   "status": "partial",
   "theorems": [
    "C25_accepted_iff_valid",
    "C25_config_syntaxes_valid",
    "C25_unambiguous",
    "C25_two_characters_refuted"
   ],
   "note": "the two-character minimum is counted in bytes, which refutes that clause"
  },
  {
   "property": "C26",
   "status": "proved",
   "theorems": [
    "C26_whitespace_local",
    "C26_blanks",
    "C26_split",
    "C26_whole_template",
    "C26_written"
   ],
   "note": "for the sequence of literals and tags the generator visits, and for whole sets of templates with branches, macros, blocks and includes; C26_written is about the output of the generated code of templates without expressions or choices"
  },
  {
   "property": "C27",
   "status": "partial",
   "theorems": [
    "C27_preference_partial",
    "C27_preference_refuted",
    "C27_inline_over_default_refuted"
   ],
   "note": "proved when the left marker is not a minimize over a blank literal; otherwise refuted"
  },
  {
   "property": "C28",
   "status": "proved",
   "theorems": [
    "C28_whitespace_default",
    "C28_bad_whitespace"
   ],
   "note": ""
  },
  {
   "property": "C29",
   "status": "partial",
   "theorems": [
    "C29_rendering_partial",
    "C29_source_partial",
    "C29_built_in"
   ],
   "note": "proved for every template whose variables capture no name used in another sense (scoped); without that it is false, see the refutations of C31, C32, C33, C34, C37"
  },
  {
   "property": "C30",
   "status": "proved",
   "theorems": [
    "C30_text_unchanged",
    "C30_literal"
   ],
   "note": "for every write the generator merges from text and expressions; the string literal in the generated text stands for exactly the text"
  },
  {
   "property": "C31",
   "status": "partial",
   "theorems": [
    "C31_let_partial",
    "C31_let_before_refuted",
    "C31_declared_then_pattern_refuted",
    "C31_let_in_block_refuted"
   ],
   "note": "proved for scoped templates; refuted in general, e.g. for a field shown before a let of the same name"
  },
  {
   "property": "C32",
   "status": "partial",
   "theorems": [
    "C32_only_fitting_calls",
    "C32_pairing",
    "C32_values_partial",
    "C32_swapped_arguments_refuted",
    "C32_later_parameter_refuted",
    "C32_let_in_macro_refuted",
    "C32_loop_counter_refuted",
    "C32_keyword_parameter_refuted",
    "C32_let_parameter_refuted"
   ],
   "note": "which calls are accepted and which argument goes to which parameter is proved for all calls; the values for scoped templates; six ways in which a parameter does not have the caller's value"
  },
  {
   "property": "C33",
   "status": "partial",
   "theorems": [
    "C33_filter_block_partial",
    "C33_empty_filter_block_refuted",
    "C33_tags_in_filter_block_refuted",
    "C33_let_in_filter_block_refuted"
   ],
   "note": "proved for scoped templates; refuted for empty bodies and bodies with tags"
  },
  {
   "property": "C34",
   "status": "partial",
   "theorems": [
    "C34_context",
    "C34_base_template",
    "C34_most_derived",
    "C34_block_sees_outer_let_refuted"
   ],
   "note": "which definition is rendered is proved for every chain; refuted: a block can see variables of the template around it"
  },
  {
   "property": "C35",
   "status": "proved",
   "theorems": [
    "C35_next_definition",
    "C35_no_definition"
   ],
   "note": "for every chain of parents"
  },
  {
   "property": "C36",
   "status": "partial",
   "theorems": [
    "C36_fragment_partial",
    "C36_source_partial",
    "C36_other_block_refuted",
    "C36_block_in_loop_refuted",
    "C36_block_in_if_refuted",
    "C36_no_such_block_refuted",
    "C36_filter_block_refuted",
    "C36_included_block_refuted",
    "C36_nested_block_refuted"
   ],
   "note": "Proved for a block at the top of the base template or, there, inside of any number of other blocks, surrounded by text, expressions, comments, definitions and other blocks (inside of other blocks only before it): with block = x the code writes exactly what the block alone means. Missing: the block inside of an if, loop, macro or included template, and lets, control flow, calls, includes or filter blocks beside it. The full statement is false (refuted seven ways, one of them for other tags after a block inside of a block)."
  },
  {
   "property": "C37",
   "status": "partial",
   "theorems": [
    "C37_scope_partial",
    "C37_included_file",
    "C37_include_leaks_refuted",
    "C37_relative_include_refuted"
   ],
   "note": "proved for scoped templates; which file is included is proved for all; refuted: a variable leaks, and paths are relative to the derived template, not the including one"
  },
  {
   "property": "C38",
   "status": "partial",
   "theorems": [
    "C38_innermost_binding",
    "C38_pop_panics_iff_unbalanced",
    "C38_variable_text",
    "C38_keywords_raw",
    "C38_names_stay_distinct",
    "C38_raw_identifier_legal_partial",
    "C38_raw_identifier_legal_refuted"
   ],
   "note": "resolution proved for every scope history; the keyword crate becomes an illegal raw identifier"
  },
  {
   "property": "C39",
   "status": "proved",
   "theorems": [
    "C39_loop_code",
    "C39_else_runs",
    "C39_else_does_not_run",
    "C39_in_template_partial"
   ],
   "note": "for the code of every loop; the statement about whole templates needs scoped templates"
  },
  {
   "property": "C40",
   "status": "partial",
   "theorems": [
    "C40_search_ends",
    "C40_context_ends",
    "C40_parents_end_partial",
    "C40_self_extends",
    "C40_expansion_ends_partial",
    "C40_compiled_ends",
    "C40_cycle_not_compiled",
    "C40_ranked_partial",
    "C40_filter_name_found",
    "C40_extends_cycle_refuted",
    "C40_include_cycle_refuted",
    "C40_block_cycle_refuted"
   ],
   "note": "search and contexts always end; expansion ends whenever no template is its own ancestor and no body of a template, block or macro leads back to itself, and that is needed for code to be generated; as stated refuted: extends cycles of length two, include cycles and blocks that contain each other through super() never end"
  },
  {
   "property": "C41",
   "status": "partial",
   "theorems": [
    "C41_macro_partial",
    "C41_no_panic_partial",
    "C41_search",
    "C41_block_in_macro_refuted",
    "C41_block_in_filter_refuted",
    "C41_nesting_refuted",
    "C41_text_nesting_refuted",
    "C60_macro_refuted",
    "C60_crate_refuted"
   ],
   "note": "no panic for every set of templates with blocks outside macros and filter blocks, include names that mean the same everywhere and bounded nesting; each condition is needed (refutations); the generated text is then parsed with unwrap: that this does not panic is C60; C41_macro_partial puts both together for the whole macro, from the attributes on"
  },
  {
   "property": "C42",
   "status": "partial",
   "theorems": [
    "C42_merging_partial",
    "C42_candidates",
    "C42_custom_filter_refuted",
    "C42_filter_call_lost_refuted",
    "C42_parameter_refuted"
   ],
   "note": "proved for every write and arbitrary effects of calls; refuted for filters of the user, which count as call-free and for macro parameters that stand for an attribute of a call"
  },
  {
   "property": "C43",
   "status": "partial",
   "theorems": [
    "C43_used_templates_partial",
    "C43_self_import_refuted",
    "C43_inline_replaced_refuted"
   ],
   "note": "exactly the reachable files, each listed once with its own contents; loaded once is refuted for a template that refers to itself; a template in the attribute is replaced by a file with the path made up for it"
  },
  {
   "property": "C44",
   "status": "proved",
   "theorems": [
    "C44_lookup_order"
   ],
   "note": "file system and path joining are parameters"
  },
  {
   "property": "C45",
   "status": "proved",
   "theorems": [
    "C45_escaper_choice",
    "C45_user_before_builtin",
    "C45_builtin",
    "C45_none_is_error",
    "C45_reported_extension_refuted"
   ],
   "note": "the file's extension here is the one after the last dot, not the reported one"
  },
  {
   "property": "C46",
   "status": "proved",
   "theorems": [
    "C46_extension_plain",
    "C46_extension_jinja",
    "C46_extension_jinja_only",
    "C46_no_extension",
    "C46_hidden_file",
    "C46_content_type"
   ],
   "note": "mime_guess is trusted; std path splitting is a small explicit model"
  },
  {
   "property": "C47",
   "status": "proved",
   "theorems": [
    "C47_one_newline_dropped",
    "C47_otherwise_verbatim"
   ],
   "note": ""
  },
  {
   "property": "C48",
   "status": "partial",
   "theorems": [
    "C48_one_source_partial",
    "C48_unknown_key_rejected",
    "C48_missing_source_is_error_refuted",
    "C48_path_key_is_error_refuted",
    "C48_ext_with_path_refuted",
    "C48_given_once_refuted"
   ],
   "note": "four clauses are refuted"
  },
  {
   "property": "C49",
   "status": "partial",
   "theorems": [
    "C49_render",
    "C49_render_into_string",
    "C49_to_string",
    "C49_write_into",
    "C49_failing_writer",
    "C49_failing_io_writer",
    "C49_same_failure_refuted"
   ],
   "note": "same text and prefix on failure proved; same failure refuted for write_into under recent std"
  },
  {
   "property": "C50",
   "status": "partial",
   "theorems": [
    "C50_success",
    "C50_error_partial",
    "C50_axum_error_status_refuted"
   ],
   "note": "framework builders are small explicit models; axum sends errors with status 200"
  },
  {
   "property": "C51",
   "status": "proved",
   "theorems": [
    "C51_if_defined",
    "C51_match_defined",
    "C51_median_defined",
    "C51_median_of_nothing_panics",
    "C51_hint_has_no_influence"
   ],
   "note": "sizes are unbounded numbers in the model; usize overflow of the hint is not modelled"
  },
  {
   "property": "C52",
   "status": "proved",
   "theorems": [
    "C52_macro_call"
   ],
   "note": "calls anywhere: C26_whole_template with fl_call of FlatSpec.v"
  },
  {
   "property": "C53",
   "status": "partial",
   "theorems": [
    "C53_inside",
    "C53_suffix",
    "C53_only_inside_refuted"
   ],
   "note": "files outside the directory are shown as if inside"
  },
  {
   "property": "C54",
   "status": "proved",
   "theorems": [
    "C54_written_is_read",
    "C54_written_is_read_anywhere"
   ],
   "note": "for every tree whose operands have the strength their place needs, all expression forms, within the nesting limit stated in the property"
  },
  {
   "property": "C55",
   "status": "partial",
   "theorems": [
    "C55_numbers_partial",
    "C55_strings",
    "C55_chars_partial",
    "C55_numbers_refuted",
    "C55_chars_refuted"
   ],
   "note": "strings proved; numbers proved but for floats that end in a dot and characters but for underscores in Unicode escapes, which are rejected"
  },
  {
   "property": "C56",
   "status": "partial",
   "theorems": [
    "C56_whole_templates_partial",
    "C56_template_meaning_partial",
    "C56_in_order_partial",
    "C56_let_first_refuted",
    "C56_let_overtakes_refuted",
    "C56_filter_block_first_refuted",
    "C56_argument_again_refuted"
   ],
   "note": "proved for templates with conditionals, matches, loops, blocks, includes, macros, and lets that no pending expression precedes; a let overtakes expressions before it, the body of a filter block too, and an attribute given to a macro is evaluated at each use"
  },
  {
   "property": "C57",
   "status": "proved",
   "theorems": [
    "C57_template_read_back",
    "C57_unambiguous",
    "C57_nodes_read_back"
   ],
   "note": "the written form (WriteSpec.v) leaves out one-element tuples, the word with, and trailing commas in patterns, and comments before the first arm of a match; break and continue only occur in loops"
  },
  {
   "property": "C58",
   "status": "partial",
   "theorems": [
    "C58_grouping_partial",
    "C58_reading_unique",
    "C58_tokens_text",
    "C58_reading_tokens",
    "C58_token_ends_partial",
    "C58_grouping_refuted",
    "C58_runs_together_refuted"
   ],
   "note": "proved for every template without a comparison of a comparison, ..= without end, a number as a field that is not an index, an index of a number, or if let with a range or ||; for these it is false (the code is not Rust); the reader works on tokens; that the text is divided into these tokens, none running into the next, is proved for the same templates if their parts can be read by Rust one by one (as in C60), and false for an index of a number"
  },
  {
   "property": "C59",
   "status": "partial",
   "theorems": [
    "C59_iteration_partial",
    "C59_iteration_refuted"
   ],
   "note": "proved for names, attributes and elements; a field in parentheses is moved, which is refuted"
  },
  {
   "property": "C60",
   "status": "partial",
   "theorems": [
    "C60_lexes_partial",
    "C60_name_refuted",
    "C60_crate_refuted",
    "C60_escape_refuted",
    "C60_char_refuted",
    "C60_macro_refuted",
    "C60_comment_refuted"
   ],
   "note": "proved for every set of parsed templates whose names, literals and macro arguments Rust itself can read; each exception is refuted"
  },
  {
   "property": "C61",
   "status": "proved",
   "theorems": [
    "C61_fallback",
    "C61_same_fallback"
   ],
   "note": "for every struct with a name and generics that can be read, as the compiler provides them"
  },
  {
   "property": "C62",
   "status": "partial",
   "theorems": [
    "C62_files_partial",
    "C62_config_refuted"
   ],
   "note": "proved of the template files; refuted for the file with the configuration, which is not named"
  },
  {
   "property": "C63",
   "status": "partial",
   "theorems": [
    "C63_statements_partial",
    "C63_break_refuted",
    "C63_break_fragment_refuted",
    "C63_else_refuted",
    "C63_filter_refuted",
    "C63_declaration_refuted"
   ],
   "note": "proved for templates where no break leaves a block, else is last, and choices of patterns are not in declarations and loops with a condition; refuted without each of these"
  },
  {
   "property": "C64",
   "status": "proved",
   "theorems": [
    "C64_arguments_lent",
    "C64_bindings_refuted"
   ],
   "note": "the second theorem shows that the property cannot be extended to let and to the arguments of macros, which can move"
  },
  {
   "property": "C65",
   "status": "partial",
   "theorems": [
    "C65_names_bound_partial",
    "C65_loop_refuted",
    "C65_argument_refuted",
    "C65_keyword_refuted"
   ],
   "note": "proved for templates that use loop only inside of a loop of the same template, block or macro, whose macro parameters are no keywords, and where no value given to a macro mentions a parameter of that macro; refuted without each of these.  Names inside of the arguments of Rust macros are not looked at"
  },
  {
   "property": "C66",
   "status": "proved",
   "theorems": [
    "C66_formats_fit",
    "C66_one_reading"
   ],
   "note": "for all trees of nodes, parsed or not; the second theorem says that the grammar of format strings used in the statement gives each string one reading.  What the user writes in the format filter is not looked at"
  },
  {
   "property": "C67",
   "status": "partial",
   "theorems": [
    "C67_code",
    "C67_success",
    "C67_text_partial",
    "C67_text_refuted",
    "C67_error_refuted"
   ],
   "note": "success and the generated statements are proved independent of all orders; the text is proved the same up to the order of the lines that name the files, and refuted as a whole (they come in the order of a hash map); which of several errors is reported depends on the order as well (refuted)"
  },
  {
   "property": "C68",
   "status": "proved",
   "theorems": [
    "C68_writes",
    "C68_output",
    "C68_active",
    "C68_markup",
    "C68_no_markup"
   ],
   "note": "for all trees of nodes, parsed or not, and all worlds that meet the law of MarkupDisplay; that filters such as linebreaks or json give text that is escaped again is part of it.  Expressions with Rust macros have no meaning in the model, so runs that reach one are not covered"
  },
  {
   "property": "C69",
   "status": "proved",
   "theorems": [
    "C69_code",
    "C69_output",
    "C69_alone",
    "C69_project"
   ],
   "note": "std's path functions and the file system are assumed to follow the move for the paths and names of the project (moved_world), which is shown for path functions written on text; the search among the templates is in C69_project.  That names beginning with a slash do not move with the project is shown by an example"
  },
  {
   "property": "C70",
   "status": "proved",
   "theorems": [
    "C70_spelling",
    "C70_macro"
   ],
   "note": "C70_macro is C70_spelling for what the compiler gets from the macro, errors included; for templates in the written form of C57 and for syntaxes whose closing delimiters cannot continue an expression (plain_end, block_end_ok); both projects must be configured without error, alike but for the syntax.  The message of a syntax error is not compared, since written templates have none"
  },
  {
   "property": "C71",
   "status": "proved",
   "theorems": [
    "C71_outside_blocks",
    "C71_project",
    "C71_macro"
   ],
   "note": "C71_outside_blocks is from the trees of the templates on, with the templates to be loaded given.  C71_project and C71_macro are for the whole derive with search and parser, and there the nodes left out contain no include, since the file of an include is loaded by the search (C69) even outside of blocks.  The size hint is part of the code compared"
  },
  {
   "property": "C72",
   "status": "partial",
   "theorems": [
    "C72_one_write",
    "C72_straight_partial",
    "C72_not_too_much",
    "C72_one_number",
    "C72_let_refuted",
    "C72_include_refuted",
    "C72_block_refuted"
   ],
   "note": "complete for templates of text and expressions.  False once there is a let without value, an include or a block: the text before these is written but its size is dropped, as the refutations show.  Templates with branches and loops, where the code takes medians, are not claimed (C51)"
  },
  {
   "property": "C73",
   "status": "proved",
   "theorems": [
    "C73_never_called",
    "C73_project"
   ],
   "note": "C73_never_called is from the trees of the templates on.  C73_project is for the whole macro with search and parser: both texts must be read without error or fail alike, and the bodies include no file, since the search loads these files all the same.  The blank handling of a macro to its outside stays"
  },
  {
   "property": "C74",
   "status": "proved",
   "theorems": [
    "C74_names",
    "C74_project"
   ],
   "note": "C74_names is from the trees of the templates on, C74_project for the whole macro with search and parser, for projects whose parsed files differ in these names.  The names that stand in some messages (generator.rs:573-604) are left out of the modelled messages, so for errors the claim is about their kind only"
  },
  {
   "property": "C75",
   "status": "proved",
   "theorems": [
    "C75_block_names",
    "C75_project"
   ],
   "note": "C75_block_names is from the trees of the templates on, C75_project for the whole macro with search and parser, for projects whose parsed files differ in these names and in the block argument.  The names that stand in some messages (generator.rs:919-945) are left out of the modelled messages, so for errors the claim is about their kind only"
  }
 ]
}