{"id": "C01", "title": "HTML escaping leaves no active markup", "statement": "Whatever text an expression displays as, the HTML-escaped output contains no '<', '>', double quote or apostrophe, and every '&' in it is the first character of one of the five entities &lt; &gt; &amp; &quot; &#x27;.", "quantifier": "for every byte string (hence every displayed value)", "why_tests_cant": "unit tests sample a handful of strings; an escaper bug can hide at any byte value, any position and any run length", "anchors": ["askama_escape/src/lib.rs: Html::write_escaped", "askama_escape/src/lib.rs: MarkupDisplay::fmt"]}
{"id": "C02", "title": "HTML escaping is lossless", "statement": "A reader that replaces the five entities by the characters they stand for gets back exactly the original text, so no data is dropped, duplicated or reordered by escaping.", "quantifier": "for every byte string", "why_tests_cant": "a dropped or duplicated slice only shows for particular positions of special characters", "anchors": ["askama_escape/src/lib.rs: Html::write_escaped"]}
{"id": "C03", "title": "Escaping does not depend on how the value writes itself", "statement": "If a Display implementation emits its text in any sequence of write_str pieces, the escaped output is the same as escaping the whole text at once, and no piece written is cut inside a UTF-8 character.", "quantifier": "for every text and every way of cutting it into pieces", "why_tests_cant": "the number of ways a Display impl may chunk its output is unbounded", "anchors": ["askama_escape/src/lib.rs: EscapeWriter::write_str", "askama_escape/src/lib.rs: Html::write_escaped"]}
{"id": "C04", "title": "Unescaped contexts output text verbatim", "statement": "With the plain-text escaper, or when a value has been marked safe, the text is written unchanged; marking safe an already unsafe wrapper switches escaping off and never on.", "quantifier": "for every text, every chunking and every escaper", "why_tests_cant": "identity over all inputs", "anchors": ["askama_escape/src/lib.rs: Text::write_escaped", "askama_escape/src/lib.rs: MarkupDisplay"]}
{"id": "C05", "title": "Every expression is escaped unless its outermost filter opts out", "statement": "In a template, the text contributed by {{ expr }} is the escaped display of the value under the template's escaper, unless the outermost operation of expr is the safe or escape filter, in which case it is the raw text (safe) or the text escaped exactly once (escape).", "quantifier": "for every expression and every value", "why_tests_cant": "needs all expression shapes; a missed wrapping is an injection hole", "anchors": ["askama_derive/src/generator.rs: write_expr", "askama_derive/src/generator.rs: prepare_format", "askama_derive/src/generator.rs: visit_filter", "askama_derive/src/generator.rs: _visit_escape_filter"]}
{"id": "C06", "title": "truncate cuts at a character boundary and marks the cut", "statement": "truncate(n) outputs the shortest prefix made of whole characters that is at least n bytes long (the whole text if it is not longer), followed by '...' exactly when something was cut off, whatever the pieces the value is written in.", "quantifier": "for every text, every n and every chunking", "why_tests_cant": "chunk boundaries, multibyte boundaries and n interact", "anchors": ["askama/src/filters/mod.rs: truncate", "askama/src/filters/mod.rs: TruncateFilter"]}
{"id": "C07", "title": "indent only inserts spaces after inner newlines", "statement": "indent(w) leaves the text unchanged except that w spaces follow every newline that is not the last byte; if the text or the width reaches the 10000 limit the text is returned unchanged.", "quantifier": "for every text and width", "why_tests_cant": "boundary conditions: empty text, trailing newlines, limits", "anchors": ["askama/src/filters/mod.rs: indent"]}
{"id": "C08", "title": "trim removes exactly the surrounding white space", "statement": "trim outputs the text without leading and trailing white space, whatever the pieces the value is written in, including pieces that are themselves blank.", "quantifier": "for every text and every chunking", "why_tests_cant": "blank leading pieces interact with the collector state", "anchors": ["askama/src/filters/mod.rs: trim"]}
{"id": "C09", "title": "join interleaves the separator", "statement": "join(sep) outputs the displayed items in order with sep between consecutive items and nowhere else; and a joined value used twice in a template shows the same text twice.", "quantifier": "for every list of items and separator", "why_tests_cant": "empty, singleton and repeated display of the same filter object", "anchors": ["askama/src/filters/mod.rs: join", "askama/src/filters/mod.rs: JoinFilter", "askama_derive/src/generator.rs: named_expression"]}
{"id": "C10", "title": "line-break filters account for every line", "statement": "linebreaksbr, linebreaks and paragraphbreaks keep all non-newline text in order, turn newlines into the documented tags, and leave no newline that they promise to replace.", "quantifier": "for every text", "why_tests_cant": "runs of newlines of any length", "anchors": ["askama/src/filters/mod.rs: linebreaks", "askama/src/filters/mod.rs: linebreaksbr", "askama/src/filters/mod.rs: paragraphbreaks"]}
{"id": "C11", "title": "urlencode output is URL-safe and decodable", "statement": "urlencode / urlencode_strict output only letters, digits, '_', '.', '-', '~' (and '/' for the non strict one) plus %XX escapes, and percent-decoding gives the original bytes.", "quantifier": "for every text", "why_tests_cant": "all byte values at all positions", "anchors": ["askama/src/filters/mod.rs: urlencode", "askama/src/filters/mod.rs: urlencode_strict"]}
{"id": "C12", "title": "json output is safe in HTML and denotes the same JSON", "statement": "The json filter's output contains no '&', '<', '>' or apostrophe for any serialised value and any way the serialiser chunks its output, and replacing the four \\u00XX escapes gives back the serialised text.", "quantifier": "for every serialised text and chunking", "why_tests_cant": "all chunkings and positions", "anchors": ["askama/src/filters/json.rs: json", "askama/src/filters/json.rs: JsonWriter"]}
{"id": "C13", "title": "case and layout filters", "statement": "capitalize, title, center, wordcount, lower and upper do what the documentation says: capitalize upper-cases the first character and lower-cases the rest; title does so per word; wordcount counts maximal runs of non-blank characters; center pads to the requested width with the surplus on the right and never truncates.", "quantifier": "for every text and width", "why_tests_cant": "word boundaries and widths are unbounded", "anchors": ["askama/src/filters/mod.rs: capitalize", "askama/src/filters/mod.rs: title", "askama/src/filters/mod.rs: center", "askama/src/filters/mod.rs: wordcount"]}
{"id": "C14", "title": "loop variables are exact", "statement": "In a for loop over any iterator, the k-th item is delivered with loop.index0 = k, loop.index = k+1, loop.first exactly for k = 0, and loop.last exactly when no further item follows; all items are delivered in order, once.", "quantifier": "for every (even stateful) iterator and every position", "why_tests_cant": "one-ahead peeking must be right for all lengths", "anchors": ["askama/src/helpers.rs: TemplateLoop", "askama_derive/src/generator.rs: write_loop", "askama_derive/src/generator.rs: visit_attr"]}
{"id": "C15", "title": "plain text passes through as is", "statement": "A template that contains none of the three opening delimiters parses successfully to that text and renders exactly that text, whatever the whitespace configuration.", "quantifier": "for every text and every valid delimiter set", "why_tests_cant": "all texts, including braces, quotes, blanks and partial delimiters", "anchors": ["askama_parser/src/node.rs: Lit::parse", "askama_parser/src/node.rs: Lit::split_ws_parts", "askama_parser/src/lib.rs: Ast::from_str", "askama_derive/src/generator.rs: visit_lit"]}
{"id": "C16", "title": "raw blocks are verbatim", "statement": "Everything between {% raw %} and the first {% endraw %} is output verbatim (up to the whitespace control of those tags), whatever template syntax it contains.", "quantifier": "for every text without an endraw tag", "why_tests_cant": "all embedded syntax fragments", "anchors": ["askama_parser/src/node.rs: Raw::parse", "askama_parser/src/node.rs: skip_till"]}
{"id": "C17", "title": "comments nest and vanish", "statement": "A comment ends at the comment-end that balances its start, nested comments included; its content contributes nothing to the output; an unbalanced comment is an error.", "quantifier": "for every nesting structure and content", "why_tests_cant": "unbounded nesting and adjacent delimiters", "anchors": ["askama_parser/src/node.rs: Comment::parse", "askama_derive/src/generator.rs: write_comment"]}
{"id": "C18", "title": "operator precedence and associativity are Rust's", "statement": "For every expression built from the binary operators, writing it with Rust's precedence and left associativity (parentheses only where Rust needs them) parses to the tree Rust would build.", "quantifier": "for every expression tree", "why_tests_cant": "the combinations of operators at all depths are unbounded", "anchors": ["askama_parser/src/expr.rs: Expr::parse", "askama_parser/src/expr.rs: expr_prec_layer"]}
{"id": "C19", "title": "the parser always answers", "statement": "Parsing any source with any delimiters ends with a template or an error value: it never loops, never recurses deeper than a fixed bound, never slices out of range.", "quantifier": "for every source text", "why_tests_cant": "non-termination and panics need adversarial inputs", "anchors": ["askama_parser/src/lib.rs: Ast::from_str", "askama_parser/src/lib.rs: Level", "askama_parser/src/node.rs: Node::many", "askama_parser/src/expr.rs: Expr::parse"]}
{"id": "C20", "title": "parse errors point at the offending place", "statement": "The row, column and excerpt of a parse error are those of the position where parsing stopped.", "quantifier": "for every source and error position", "why_tests_cant": "line ends, multi-byte characters and end of input", "anchors": ["askama_parser/src/lib.rs: Ast::from_str"]}
{"id": "C21", "title": "the nesting limit counts nesting only", "statement": "Whether a template is rejected as too deeply nested depends on how deeply it nests and not on how many sibling constructs come before.", "quantifier": "for every template", "why_tests_cant": "needs templates with hundreds of siblings", "anchors": ["askama_parser/src/node.rs: Target::parse", "askama_parser/src/lib.rs: State::nest", "askama_parser/src/lib.rs: State::leave"]}
{"id": "C22", "title": "break and continue only inside loops", "statement": "A template that parses has break and continue only inside the body of a for loop of the same template (not in its else part).", "quantifier": "for every source", "why_tests_cant": "all nestings", "anchors": ["askama_parser/src/node.rs: Node::break", "askama_parser/src/node.rs: Loop::parse", "askama_parser/src/lib.rs: State"]}
{"id": "C23", "title": "call arguments are well formed", "statement": "In every parsed macro call named arguments come after positional ones and no name occurs twice; named arguments never appear outside macro calls.", "quantifier": "for every source", "why_tests_cant": "all argument lists", "anchors": ["askama_parser/src/expr.rs: Expr::arguments", "askama_parser/src/expr.rs: named_argument"]}
{"id": "C24", "title": "accepted literals are valid", "statement": "Number, string and character literals accepted by the parser are well-formed Rust literals and are kept verbatim.", "quantifier": "for every literal", "why_tests_cant": "all escapes and digits", "anchors": ["askama_parser/src/lib.rs: num_lit", "askama_parser/src/lib.rs: char_lit", "askama_parser/src/lib.rs: str_lit"]}
{"id": "C25", "title": "accepted custom delimiters are unambiguous", "statement": "A configured syntax is accepted only if each delimiter is at least two characters without blanks, and no opening delimiter is a prefix of another, so at any position at most one kind of tag can start.", "quantifier": "for every configured syntax", "why_tests_cant": "all triples of delimiters", "anchors": ["askama_derive/src/config.rs: TryInto<Syntax> for RawSyntax"]}
{"id": "C26", "title": "whitespace control is local and exact", "statement": "Each piece of literal text is output with its leading blanks treated according to the right marker of the tag before it, its trailing blanks according to the left marker of the tag after it, and its middle unchanged; suppress drops, preserve keeps, minimize leaves one newline if there was one and one space otherwise; an absent marker means the configured default.", "quantifier": "for every sequence of tags and text", "why_tests_cant": "state flows through arbitrary sequences of tags and nested blocks", "anchors": ["askama_derive/src/generator.rs: visit_lit", "askama_derive/src/generator.rs: flush_ws", "askama_derive/src/generator.rs: prepare_ws", "askama_derive/src/generator.rs: handle_ws"]}
{"id": "C27", "title": "conflicting whitespace controls resolve suppress > minimize > preserve", "statement": "When two tags point at the same blank literal, the documented preference decides: suppress wins over minimize, which wins over preserve.", "quantifier": "for every pair of markers and blank text", "why_tests_cant": "all pairs and defaults", "anchors": ["askama_derive/src/generator.rs: visit_lit", "book/src/template_syntax.md: Whitespace control"]}
{"id": "C28", "title": "whitespace default: attribute over config file over preserve", "statement": "The default whitespace handling is the derive attribute's if given, else the config file's, else preserve.", "quantifier": "for every combination", "why_tests_cant": "configuration combinations", "anchors": ["askama_derive/src/config.rs: Config::new", "askama_derive/src/config.rs: WhitespaceHandling"]}
{"id": "C29", "title": "rendering equals the template's meaning", "statement": "The text rendered by the generated code equals the straightforward meaning of the template: text and expression values in source order, if/else-if/else picks the first true branch, match picks the first matching arm, for repeats its body per item with the loop variables bound in that body only, and let binds from there to the end of the enclosing block; a failing expression makes rendering fail.", "quantifier": "for every template in the modelled fragment and all field values", "why_tests_cant": "buffering, deferred evaluation, caching and scoping interact over arbitrary nestings", "anchors": ["askama_derive/src/generator.rs: handle", "askama_derive/src/generator.rs: write_if", "askama_derive/src/generator.rs: write_loop", "askama_derive/src/generator.rs: write_match", "askama_derive/src/generator.rs: write_let", "askama_derive/src/generator.rs: write_buf_writable"]}
{"id": "C30", "title": "braces and special characters in text survive code generation", "statement": "Literal text containing braces, percent signs, quotes or anything that looks like a format placeholder is output unchanged even when it is merged with expressions into one formatted write.", "quantifier": "for every text and every mix of text and expressions", "why_tests_cant": "text that imitates placeholders", "anchors": ["askama_derive/src/generator.rs: prepare_format", "askama_derive/src/generator.rs: write_buf_writable"]}
{"id": "C31", "title": "let shadows only from its own position on", "statement": "{{ x }} placed before {% let x = ... %} shows the earlier x (field or variable), and after it the new one.", "quantifier": "for every template", "why_tests_cant": "deferred writes make it depend on what follows", "anchors": ["askama_derive/src/generator.rs: write_let", "askama_derive/src/generator.rs: is_shadowing_variable", "askama_derive/src/generator.rs: write_buf_writable"]}
{"id": "C32", "title": "macro arguments bind parameters to the caller's values", "statement": "Calling a macro binds each parameter to the value the corresponding (positional or named) argument has at the call site; wrong arity, unknown names and double binding are compile errors.", "quantifier": "for every macro signature and argument list", "why_tests_cant": "all permutations of names, including arguments named like parameters", "anchors": ["askama_derive/src/generator.rs: write_call"]}
{"id": "C33", "title": "a filter block filters its whole body and nothing else", "statement": "The output of a filter block is the filter applied to the rendering of its body; text before and after it is unaffected.", "quantifier": "for every body", "why_tests_cant": "bodies that are empty, contain control flow, or follow buffered text", "anchors": ["askama_derive/src/generator.rs: write_filter_block"]}
{"id": "C34", "title": "the most derived block definition is rendered", "statement": "With inheritance the base template's text is rendered with each block replaced by the definition in the most derived template that defines it.", "quantifier": "for every inheritance chain and set of blocks", "why_tests_cant": "chains of any length and overriding pattern", "anchors": ["askama_derive/src/heritage.rs: Heritage::new", "askama_derive/src/heritage.rs: Context::new", "askama_derive/src/generator.rs: write_block"]}
{"id": "C35", "title": "super() renders the next definition up the chain", "statement": "Inside a block, {% call super() %} renders the definition of the same block in the nearest ancestor template that defines it, and is an error when there is none.", "quantifier": "for every chain", "why_tests_cant": "nested super calls at any depth", "anchors": ["askama_derive/src/generator.rs: write_block", "askama_derive/src/generator.rs: write_call"]}
{"id": "C36", "title": "block fragments render exactly the block", "statement": "With block = \"x\" the output is the rendering of block x and nothing outside it, and a template that compiles without the option compiles with it.", "quantifier": "for every template and block", "why_tests_cant": "code outside the block is generated and discarded", "anchors": ["askama_derive/src/generator.rs: write_block", "askama_derive/src/generator.rs: WritableBuffer", "askama_derive/src/generator.rs: Buffer"]}
{"id": "C37", "title": "include renders the found template in the current scope", "statement": "include outputs the rendering of the template resolved relative to the including file, with the local variables visible, and its own variables do not leak out.", "quantifier": "for every include structure", "why_tests_cant": "nested directories, local variables", "anchors": ["askama_derive/src/generator.rs: handle_include", "askama_derive/src/input.rs: find_used_templates"]}
{"id": "C38", "title": "variables resolve to the innermost binding", "statement": "A name refers to the innermost template binding in scope, else to the template struct's field; names that are Rust keywords work as raw identifiers.", "quantifier": "for every scope stack and name", "why_tests_cant": "scope stacks of any depth", "anchors": ["askama_derive/src/generator.rs: MapChain", "askama_derive/src/generator.rs: visit_var", "askama_derive/src/generator.rs: normalize_identifier"]}
{"id": "C39", "title": "the else part of a for loop runs iff no iteration ran", "statement": "The else part is rendered exactly when the (filtered) iterator yields no item.", "quantifier": "for every iterator and condition", "why_tests_cant": "all iterators", "anchors": ["askama_derive/src/generator.rs: write_loop"]}
{"id": "C40", "title": "template expansion terminates", "statement": "Deriving on any set of template files ends with code or an error; cyclic extends are reported as errors.", "quantifier": "for every set of template files", "why_tests_cant": "cycles of any length through extends, includes, macros and blocks", "anchors": ["askama_derive/src/input.rs: find_used_templates", "askama_derive/src/heritage.rs: Heritage::new", "askama_derive/src/generator.rs: write_call", "askama_derive/src/generator.rs: handle_include", "askama_derive/src/generator.rs: write_block"]}
{"id": "C41", "title": "deriving never panics", "statement": "For any template source the derive macro reports problems as compile errors instead of panicking (indexing, arithmetic overflow, failed assertions).", "quantifier": "for every set of templates", "why_tests_cant": "panics hide in rare structural combinations", "anchors": ["askama_derive/src/generator.rs: write_block", "askama_derive/src/generator.rs: Buffer", "askama_derive/src/generator.rs: handle_include", "askama_derive/src/generator.rs: visit_lit"]}
{"id": "C42", "title": "repeated expressions are merged only when that is invisible", "statement": "Evaluating a repeated expression once instead of twice is done only for expressions without calls, so it never changes the output.", "quantifier": "for every sequence of expressions", "why_tests_cant": "needs all expression shapes", "anchors": ["askama_derive/src/generator.rs: named_expression", "askama_derive/src/generator.rs: is_cacheable"]}
{"id": "C43", "title": "every used template is found and loaded once", "statement": "After the search, every template reachable through extends, import and include is loaded, each file once, and nothing unreachable is.", "quantifier": "for every set of template files", "why_tests_cant": "arbitrary reference graphs", "anchors": ["askama_derive/src/input.rs: find_used_templates"]}
{"id": "C44", "title": "template lookup order", "statement": "A referenced template is looked up next to the referring template first, then in the configured directories in order; the first existing file is used, and it is an error if none exists.", "quantifier": "for every file system and directory list", "why_tests_cant": "arbitrary file systems", "anchors": ["askama_derive/src/config.rs: Config::find_template"]}
{"id": "C45", "title": "escaper choice", "statement": "The escaper is the first configured one (user escapers before the built-in ones) whose extension list has the escape attribute or, failing that, the file's extension; none matching is an error.", "quantifier": "for every config and path", "why_tests_cant": "configs of any length", "anchors": ["askama_derive/src/input.rs: TemplateInput::new", "askama_derive/src/config.rs: Config::new"]}
{"id": "C46", "title": "extension and content type", "statement": "The extension reported for a template ignores a trailing .j2/.jinja/.jinja2 and the content type is derived from it.", "quantifier": "for every path", "why_tests_cant": "all paths", "anchors": ["askama_derive/src/input.rs: extension", "askama_derive/src/input.rs: extension_to_mime_type"]}
{"id": "C47", "title": "exactly one trailing newline is dropped from a template file", "statement": "A template file's text is used as is except that one final newline is removed.", "quantifier": "for every file content", "why_tests_cant": "any number of trailing newlines", "anchors": ["askama_derive/src/config.rs: get_template_source"]}
{"id": "C48", "title": "template attributes", "statement": "Each template attribute may be given once; exactly one of path and source must be given, ext only with source; violations are errors.", "quantifier": "for every attribute list", "why_tests_cant": "all combinations and orders", "anchors": ["askama_derive/src/input.rs: TemplateArgs::new", "askama_derive/src/input.rs: TemplateInput::new"]}
{"id": "C49", "title": "all ways to render agree", "statement": "render, render_into, write_into, Display and the dyn-safe trait produce the same text or the same failure; on failure what was written is a prefix of the full output.", "quantifier": "for every template behaviour and writer", "why_tests_cant": "failing writers at any point", "anchors": ["askama/src/lib.rs: Template", "askama/src/lib.rs: DynTemplate", "askama_derive/src/generator.rs: impl_display"]}
{"id": "C50", "title": "web framework responses", "statement": "A successful render becomes a response carrying the text and the template's content type; a render error becomes an error response and never a success with partial text.", "quantifier": "for every render result", "why_tests_cant": "all results", "anchors": ["askama_axum/src/lib.rs: into_response", "askama_warp/src/lib.rs: reply", "askama_actix/src/lib.rs: TemplateToResponse::to_response", "askama_rocket/src/lib.rs: respond"]}
{"id": "C51", "title": "size hint is only a hint", "statement": "The computed size hint is always defined and does not influence the rendered text.", "quantifier": "for every template", "why_tests_cant": "branch structures of any shape", "anchors": ["askama_derive/src/generator.rs: median", "askama_derive/src/generator.rs: impl_template"]}
{"id": "C52", "title": "macro calls expand to the body with whitespace of the call", "statement": "The whitespace around a macro call is governed by the call tag, and that inside the macro body by the macro tags.", "quantifier": "for every call and macro", "why_tests_cant": "combination of definition and call site", "anchors": ["askama_derive/src/generator.rs: write_call"]}
{"id": "C53", "title": "error message path shortening", "statement": "strip_common shows a path relative to the current directory exactly when it lies in it.", "quantifier": "for all paths", "why_tests_cant": "all path pairs", "anchors": ["askama_parser/src/lib.rs: strip_common"]}
{"id": "C54", "title": "an expression tag reads back the expression it was written from", "statement": "Writing any expression tree (calls, filters, indexing, attributes, ranges, tuples, arrays, macros, prefix and binary operators, literals), with a group wherever an operand is weaker than its place allows, and parsing the tag gives exactly that tree, as long as it nests no deeper than the parser's limit.", "quantifier": "for every expression tree and all valid delimiters that do not begin like an operator", "why_tests_cant": "trees of unbounded shape", "anchors": ["askama_parser/src/expr.rs: Expr::parse", "askama_parser/src/expr.rs: Suffix::parse", "askama_parser/src/expr.rs: Expr::arguments", "askama_parser/src/node.rs: Node::expr"]}
{"id": "C55", "title": "every Rust literal is read", "statement": "Every number, string and character literal of Rust is accepted where an expression is expected and read to its end.", "quantifier": "for every literal", "why_tests_cant": "unbounded set of literals", "anchors": ["askama_parser/src/lib.rs: num_lit", "askama_parser/src/lib.rs: str_lit", "askama_parser/src/lib.rs: char_lit"]}
{"id": "C56", "title": "expressions are evaluated once each, in template order", "statement": "Each expression is evaluated exactly once per occurrence, and in the order in which the occurrences stand in the template, so calls with side effects behave as written.", "quantifier": "for every template and all effects of the functions called", "why_tests_cant": "needs arbitrary effects; expressions are held back and merged into later writes", "anchors": ["askama_derive/src/generator.rs: named_expression", "askama_derive/src/generator.rs: write_buf_writable", "askama_derive/src/generator.rs: write_let", "askama_derive/src/generator.rs: write_call"]}
{"id": "C57", "title": "a template reads back the tree it was written from", "statement": "Writing any tree of nodes (text, comments, expressions, raw, let, call, include, import, extends, break and continue, and blocks, macros, filter blocks, if, match and for nested in any way) with any whitespace markers and any blanks in the tags, expressions and patterns being spaced in one fixed way, and parsing the text gives exactly that tree, as long as it nests no deeper than the parser's limit; so a text stands for one tree only.", "quantifier": "for every tree of nodes, all markers, all blanks in tags and all valid delimiters whose ends cannot continue an expression or a pattern", "why_tests_cant": "trees of unbounded shape and depth of nesting of tags; interplay of text and delimiters", "anchors": ["askama_parser/src/lib.rs: Ast::from_str", "askama_parser/src/node.rs: Node::many", "askama_parser/src/target.rs: Target::parse", "askama_parser/src/expr.rs: Expr::parse"]}
{"id": "C58", "title": "Rust groups a generated expression as the template grouped it", "statement": "The text of every expression in the generated code is divided by Rust into the tokens the generator meant, none running into the next, and a parser that follows the grammar of Rust reads these tokens as one tree and no other, with the same value as the expression the generator meant: parentheses are neither lost nor missing, and an & written before an expression at most attaches to its first operand, which does not change the value.", "quantifier": "for every set of parsed templates", "why_tests_cant": "every combination of operators, filters, indexes, calls, references, macro parameters and conditions", "anchors": ["askama_derive/src/generator.rs: visit_expr", "askama_derive/src/generator.rs: visit_binop", "askama_derive/src/generator.rs: visit_index", "askama_derive/src/generator.rs: write_if", "askama_derive/src/generator.rs: write_loop"]}
{"id": "C59", "title": "a for loop does not move out of the template", "statement": "Rendering only has a reference to the template value: a for loop over a part of it iterates through a reference, so the template can be rendered again and the part used again.", "quantifier": "for every loop in every template", "why_tests_cant": "all expressions that can be iterated over", "anchors": ["askama_derive/src/generator.rs: write_loop"]}
{"id": "C60", "title": "the compiler can read the generated code", "statement": "The text the derive macro produces is a sequence of Rust tokens with matching brackets, so turning it into a token stream (which is unwrapped) never fails.", "quantifier": "for every set of templates, every struct and every configuration", "why_tests_cant": "texts that imitate quotes, brackets, comments or escapes, names that are keywords, any nesting", "anchors": ["askama_derive/src/lib.rs: derive_template", "askama_derive/src/generator.rs: build", "askama_derive/src/generator.rs: write_header", "askama_derive/src/generator.rs: write_buf_writable", "askama_derive/src/generator.rs: visit_target"]}
{"id": "C61", "title": "a failed derivation still implements the traits", "statement": "When deriving fails, the error is reported together with an implementation of Template that renders nothing and of every other trait that is derived; these do not depend on what is wrong, and producing them neither fails nor panics, so the error is the only one.", "quantifier": "for every struct, all attributes, configurations and files", "why_tests_cant": "every kind of failure, any struct", "anchors": ["askama_derive/src/lib.rs: derive_template", "askama_derive/src/lib.rs: build_skeleton", "askama_derive/src/input.rs: TemplateArgs::fallback", "askama_derive/src/input.rs: TemplateInput::new", "askama_derive/src/generator.rs: build"]}
{"id": "C62", "title": "the generated code names the files it was made from", "statement": "The code begins with an include_bytes of the canonical path of every file it was made from and of no other file, so that the compiler notices when one of them changes.", "quantifier": "for every struct, configuration and set of files", "why_tests_cant": "arbitrary reference graphs and file systems", "anchors": ["askama_derive/src/generator.rs: impl_template", "askama_derive/src/lib.rs: build_template", "askama_derive/src/config.rs: read_config_file"]}
{"id": "C63", "title": "the generated statements keep to Rust's grammar", "statement": "Every break and continue in the generated code is in a loop of the same function, an else is the last part of its if and never the first, a let, a closure parameter and an assignment have a pattern that may stand there, and a let of several names has as many values.", "quantifier": "for every set of templates and every rendered block", "why_tests_cant": "a block stands where the parent template has it, not where it was parsed; arbitrary nesting of blocks, includes and macros", "anchors": ["askama_derive/src/generator.rs: write_if, write_loop, write_let, write_block, write_call, handle", "askama_parser/src/node.rs: Cond::parse, Loop::parse, Let::parse, Target::parse"]}
{"id": "C64", "title": "calls and filters borrow what they are given", "statement": "In the generated code every argument of a function, method, filter or formatting call is written behind a & or is a value that is made there (a literal, a result of an operator or of a call), never a field, variable or element itself, so a call cannot take a value out of the template.", "quantifier": "for every set of templates", "why_tests_cant": "all shapes of arguments, through macro parameters, filter chains and filter blocks", "anchors": ["askama_derive/src/generator.rs: visit_args, is_copyable, visit_filter, visit_call, write_filter_block"]}
{"id": "C65", "title": "every name in the generated code is bound", "statement": "Every local variable that the generated code uses is self, or was bound before by a let in an enclosing block of code, or by the pattern of the branch, arm, loop or closure it stands in; this includes variables of loops, macro parameters and the hidden variables of filter blocks and loops.", "quantifier": "for every set of templates and every rendered block", "why_tests_cant": "expressions are written later than they stand in the template, in other scopes, and through aliases of macro parameters; arbitrary nesting of blocks, includes and macros", "anchors": ["askama_derive/src/generator.rs: write_let, write_if, write_match, write_loop, write_call, write_filter_block, handle_include, write_block", "askama_derive/src/generator.rs: visit_var, visit_target", "askama_derive/src/generator.rs: MapChain"]}
{"id": "C66", "title": "format strings fit their arguments", "statement": "Every string given to write! or format! in the generated code is a well-formed format string whatever the text of the template, each of its holes names an argument of the same call, each argument is used, and no two arguments have the same name; so the call compiles and takes nothing from the scope around it.", "quantifier": "for all templates and every rendered block", "why_tests_cant": "texts that imitate holes and braces; repeated expressions share an argument; the numbering of arguments runs through blocks, macros and filter blocks", "anchors": ["askama_derive/src/generator.rs: prepare_format, named_expression", "askama_derive/src/generator.rs: write_buf_writable, write_filter_block"]}
{"id": "C67", "title": "the output does not depend on the order of hash maps", "statement": "The macro keeps templates, contexts, blocks, macros and imports in hash maps, whose order of iteration differs from run to run; whatever these orders are, the same struct and files give the same result: success or failure, the same code, the same text.", "quantifier": "for every struct, configuration and set of files, and all orders of all the maps", "why_tests_cant": "the orders are random and cannot be chosen by a test; arbitrary sets of templates", "anchors": ["askama_derive/src/generator.rs: impl_template", "askama_derive/src/generator.rs: write_block, handle_include", "askama_derive/src/heritage.rs: Heritage::new, Context::new", "askama_derive/src/lib.rs: build_template"]}
{"id": "C68", "title": "no value can put markup into the output", "statement": "If no expression that is shown and no filter block opts out of escaping (safe, or escape with another escaper), then whatever the generated code writes is made of texts of the templates and of values that went through the escaper of the template; with the HTML escaper every <, > and quote of the output is one of the texts'.  This holds for whatever values, functions and filters the user supplies, and also if values were marked safe before they were stored in a variable or given to a macro.", "quantifier": "for every set of templates and rendered block, every world of values, functions and filters, every run", "why_tests_cant": "all templates with inheritance, includes, macros, loops and filter blocks, and all values; one unescaped path is enough for an attack", "anchors": ["askama_derive/src/generator.rs: prepare_format, named_expression, write_buf_writable", "askama_derive/src/generator.rs: visit_filter, _visit_escape_filter, write_filter_block", "askama_escape/src/lib.rs: MarkupDisplay, Html"]}
{"id": "C69", "title": "where the templates lie does not matter", "statement": "If a project is moved as a whole to another place of the file system, and the names of templates, directories and of the configuration in it are relative, the macro gives the same code, size hint or error; only the files named in include_bytes! are those at the new place, and rendering gives the same.  A template that uses no other one gives the same code whatever its path is, so also if it stands in the attribute.", "quantifier": "for every project, file system, move that keeps files apart, and set of templates", "why_tests_cant": "all places of the file system, search directories and chains of extends, include and import", "anchors": ["askama_derive/src/generator.rs: handle_include, handle, write_block, build", "askama_derive/src/config.rs: read_config_file, find_template, get_template_source", "askama_derive/src/input.rs: TemplateInput::new, find_used_templates", "askama_derive/src/heritage.rs: Context::new, Heritage::new", "askama_derive/src/lib.rs: build_skeleton, build_template"]}
{"id": "C70", "title": "delimiters and blanks in tags are only spelling", "statement": "If two projects hold the same templates, written with different delimiters and different blanks in the tags, the macro gives the same code for both.", "quantifier": "for every tree of templates, every two accepted syntaxes with which written templates can be read back, every way to write the templates with them", "why_tests_cant": "all delimiters, all templates and all sets of files that use each other", "anchors": ["askama_parser/src/lib.rs: Ast::from_str, Syntax", "askama_parser/src/node.rs: Node::many", "askama_derive/src/config.rs: Config::new, RawSyntax::try_into", "askama_derive/src/input.rs: TemplateInput::new, find_used_templates", "askama_derive/src/lib.rs: build_template"]}
{"id": "C71", "title": "nothing outside the blocks of a child is rendered", "statement": "In a template with a parent, whatever stands outside of blocks, macros, imports and extends may be left out: the generated code, or the error, stays the same.", "quantifier": "for every set of templates, every selection of top-level nodes without declarations in those that have a parent (text, expressions, lets, conditions, loops, matches, includes, calls, filter blocks); for whole projects on disk, the same without includes", "why_tests_cant": "all templates, all chains of parents, and also included templates that have a parent", "anchors": ["askama_derive/src/lib.rs: build_template", "askama_derive/src/heritage.rs: Context::new, Heritage::new", "askama_derive/src/generator.rs: Generator::impl_template, handle_include"]}
{"id": "C72", "title": "what the size hint counts", "statement": "The size hint of a template of text and expressions is the number of bytes of its text and three for each expression; so it is for what each single write of any template adds, and without conditions, matches, loops and filter blocks the hint is never more than that.", "quantifier": "for every template of text, raw blocks, comments, expressions, macro definitions and imports; for every single write; the bound for all sets of templates without branches, with blocks, parents, includes, calls and lets", "why_tests_cant": "all texts, also with characters of several bytes and with braces that are doubled in format strings", "anchors": ["askama_derive/src/generator.rs: prepare_format", "askama_derive/src/generator.rs: named_expression", "askama_derive/src/generator.rs: write_buf_writable", "askama_derive/src/generator.rs: handle, write_let, handle_include, write_block"]}
{"id": "C73", "title": "macros that are never called do not matter", "statement": "The parameters and the bodies of macros that are not called have no influence: with any others, also faulty ones, the generated code or the error is the same.", "quantifier": "for every set of templates and every set of names that holds the names of all calls, but for calls within macros of other names; the macros of other names may be rewritten at will; for whole projects on disk, with bodies that include no file", "why_tests_cant": "all templates with imports, includes, inheritance and nested calls, and all bodies", "anchors": ["askama_derive/src/generator.rs: write_call", "askama_derive/src/generator.rs: handle (Node::Macro)", "askama_derive/src/heritage.rs: Context::new"]}
{"id": "C74", "title": "names of macros and import scopes do not matter", "statement": "If the macros and the import scopes get other names, in definitions and calls alike, with different names for different ones and super kept, the generated code is the same, as is the kind of the error.", "quantifier": "for every set of templates, every search for templates and all injective renamings of macros and of scopes that map super, and nothing else, to super", "why_tests_cant": "all templates with imports, includes, inheritance and nested calls, and all renamings", "anchors": ["askama_derive/src/generator.rs: write_call", "askama_derive/src/generator.rs: handle (Node::Macro, Node::Import)", "askama_derive/src/heritage.rs: Context::new"]}
{"id": "C75", "title": "names of blocks do not matter", "statement": "If the blocks get other names, with different names for different ones, everywhere and in the block argument of the derive macro alike, the generated code is the same, as is the kind of the error.", "quantifier": "for every set of templates, every search for templates, every block asked for or none, and all injective renamings of blocks", "why_tests_cant": "all templates with inheritance, nested blocks, super(), includes and fragments, and all renamings", "anchors": ["askama_derive/src/generator.rs: write_block", "askama_derive/src/heritage.rs: Context::new", "askama_derive/src/heritage.rs: Heritage::new", "askama_derive/src/lib.rs: build_template"]}
