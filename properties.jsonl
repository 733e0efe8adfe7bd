{"id": "C01", "title": "Text escapes decode to exactly the characters the escape grammar assigns", "statement": "Take any text that undergoes escape decoding. If it is a concatenation of ordinary characters (anything except a backslash) and escape sequences of the escape grammar (\\t \\n \\r, \\xHH up to 7F, \\u{H..H} with 1 to 6 hex digits naming a Unicode scalar value, and a backslash before one of < > { } \" ' \\ [ ]), the decoder succeeds and yields the concatenation of the meanings; otherwise the decoder reports at least one error. The decoding is unique.", "quantifier": "every string of Unicode scalar values", "why_tests_cant": "The set of strings is infinite and the interesting cases are interactions (an escape next to another escape, a truncated escape at the end, a multi-byte character inside the digits).", "anchors": ["/repo/mintyml/src/escape.rs::unescape_parts", "/repo/mintyml/src/utils.rs::StrCursor"]}
{"id": "C02", "title": "Every malformed escape is reported, with a range that points at it", "statement": "The reported ranges are in increasing order, do not overlap, lie inside the text that was scanned, begin at a backslash of that text and begin and end on character boundaries. No range is reported when and only when the text is well formed.", "quantifier": "every string and every start offset", "why_tests_cant": "Needs every mix of well formed and malformed escapes and multi-byte characters.", "anchors": ["/repo/mintyml/src/escape.rs::escape_errors", "/repo/mintyml/src/document/mod.rs::BuildContext::escapable_slice"]}
{"id": "C03", "title": "Only the documented escapes are accepted, and all of them are", "statement": "A text is accepted by the escape decoder exactly when every escape in it is one of those in the README table (README.md 'Escape Sequence'), with hexadecimal digits only.", "quantifier": "every string", "why_tests_cant": "Accepting too much is invisible to tests written from the documentation.", "anchors": ["/repo/mintyml/src/escape.rs::unescape_parts", "/repo/README.md"]}
{"id": "C04", "title": "HTML text escaping is lossless and inert", "statement": "For every text, the HTML form written to the output contains no '<' and no '>', and decoding its character references with an independent decoder gives back the text. Inside a quoted attribute the form also contains no double quote.", "quantifier": "every string of Unicode scalar values", "why_tests_cant": "Injection safety is a statement about all strings.", "anchors": ["/repo/mintyml/src/output/mod.rs::HtmlEscape", "/repo/mintyml/src/output/mod.rs::EscapeWriter"]}
{"id": "C05", "title": "XML text escaping is lossless and inert", "statement": "As C04 for the XML form, with an XML character-reference decoder that knows only numeric references and the five predefined entities.", "quantifier": "every string of Unicode scalar values", "why_tests_cant": "As C04.", "anchors": ["/repo/mintyml/src/output/mod.rs::XmlEscape", "/repo/mintyml/src/output/mod.rs::EscapeWriter"]}
{"id": "C06", "title": "A comment cannot end early and loses nothing", "statement": "For every comment text, the body written between '<!--' and '-->' does not contain '--', does not begin with '>' or '->' and does not end with '-'; so a reader that looks for the first '-->' finds the end the writer intended. The body with padding spaces removed is the comment text: only spaces are inserted and nothing is dropped.", "quantifier": "every comment text", "why_tests_cant": "An adversarial run of dashes and angle brackets of any length must be covered.", "anchors": ["/repo/mintyml/src/output/mod.rs::write_comment_body", "/repo/mintyml/src/document/text.rs::Comment"]}
{"id": "C07", "title": "The output reads back as the document tree", "statement": "An independent HTML reader applied to the output of a conversion yields, in order, exactly the opening tags with their attributes, the closing tags, the comments and the decoded text of the document tree: nothing is lost, added, reordered or merged, except white space at places where the document tree has a space or where indentation is requested.", "quantifier": "every document tree with tag and attribute names free of markup characters and no verbatim raw text, every output configuration", "why_tests_cant": "Covers unbounded nesting, content and configuration.", "anchors": ["/repo/mintyml/src/output/mod.rs::output_html_to", "/repo/mintyml/src/output/mod.rs::process_content", "/repo/mintyml/src/output/mod.rs::write_open_tag"]}
{"id": "C08", "title": "Tags are balanced", "statement": "In the output every opening tag is matched by a closing tag of the same name in properly nested order, except void elements in HTML mode (which have no closing tag) and self-closed elements in XML mode.", "quantifier": "every document tree and output configuration", "why_tests_cant": "Unbounded nesting and chains of nested selectors.", "anchors": ["/repo/mintyml/src/output/mod.rs::process_element", "/repo/mintyml/src/output/mod.rs::write_open_tag", "/repo/mintyml/src/output/mod.rs::write_close_tag"]}
{"id": "C09", "title": "Void elements are recognised case-insensitively and exactly", "statement": "In HTML mode an element is written without a closing tag exactly when its name is, up to ASCII case, one of the 14 HTML void elements, and no element is self-closed; in XML mode an element is self-closed exactly when it has no content at all, and every other element gets a closing tag.", "quantifier": "every element name and content", "why_tests_cant": "Names range over all strings.", "anchors": ["/repo/mintyml/src/output/mod.rs::is_void", "/repo/mintyml/src/output/mod.rs::process_element"]}
{"id": "C10", "title": "White space is kept where it matters", "statement": "Without indentation, the output contains between two adjacent items exactly the space the document tree has there: one space for a line or paragraph separator, the source text for exact inline space, and nothing when the tree has no space node.", "quantifier": "every document tree, indentation off", "why_tests_cant": "Every nesting of inline and block content.", "anchors": ["/repo/mintyml/src/output/mod.rs::space", "/repo/mintyml/src/output/mod.rs::process_node"]}
{"id": "C11", "title": "Indentation changes white space only", "statement": "Deleting all white space outside tags and comments from the output gives the same text whether or not indentation is requested; inside inline (text-level) content and raw elements the bytes are identical.", "quantifier": "every document tree and every indentation string made of white space", "why_tests_cant": "Every nesting and configuration.", "anchors": ["/repo/mintyml/src/output/mod.rs::line", "/repo/mintyml/src/output/mod.rs::indent", "/repo/mintyml/src/output/mod.rs::in_content"]}
{"id": "C12", "title": "Strict and forgiving conversion agree", "statement": "convert succeeds with text t exactly when convert_forgiving succeeds with t; when convert fails, convert_forgiving fails with the same error; convert_forgiving returns partial text exactly when something was written.", "quantifier": "every source, parser behaviour and configuration", "why_tests_cant": "Relates two runs for every input.", "anchors": ["/repo/mintyml/src/lib.rs::convert", "/repo/mintyml/src/lib.rs::convert_forgiving", "/repo/mintyml/src/lib.rs::convert_to_internal"]}
{"id": "C13", "title": "Fail-fast changes only how many errors are listed", "statement": "Conversion with fail_fast succeeds exactly when conversion without it succeeds, and with the same text. When conversion fails with fail_fast set, the errors reported are a non-empty initial part of the errors reported without fail_fast.", "quantifier": "every source, parser behaviour and configuration", "why_tests_cant": "Relates two runs for every input.", "anchors": ["/repo/mintyml/src/error.rs::Errors", "/repo/mintyml/src/document/mod.rs::BuildContext", "/repo/mintyml/src/lib.rs::convert_to_internal"]}
{"id": "C14", "title": "An unexplained error is reported only for an undecodable name or attribute", "statement": "convert fails with an error that carries no location (ConvertError::Unknown) only if some attribute name, attribute value, class, id or the configured language contains a malformed escape. Text content never causes it.", "quantifier": "every syntax tree in which text was checked at build time", "why_tests_cant": "Must consider every text slice, including re-sliced multi-line blocks.", "anchors": ["/repo/mintyml/src/error.rs::Errors::unknown", "/repo/mintyml/src/output/mod.rs::write_unescaped", "/repo/mintyml/src/output/utils.rs::trim_multiline"]}
{"id": "C15", "title": "Special inline tags become the configured elements", "statement": "Each special syntax (strong, emphasis, underline, strike, quote, code, code block container) becomes the element named by the corresponding option, or the documented default when the option is unset; options for other kinds have no effect on it.", "quantifier": "every document and special-tag configuration", "why_tests_cant": "Every combination of options and nesting.", "anchors": ["/repo/mintyml/src/transform/apply_special_tags.rs::tag_name", "/repo/mintyml/src/config.rs::SpecialTagConfig"]}
{"id": "C16", "title": "Explicit element names are never changed by inference", "statement": "An element written with an explicit name keeps it in the output.", "quantifier": "every document tree", "why_tests_cant": "Inference looks at context, so every context must be covered.", "anchors": ["/repo/mintyml/src/inference/engine/mod.rs::Inferrer::infer_tag_node"]}
{"id": "C17", "title": "Inference never loses, adds or reorders content", "statement": "Text, space and comment nodes and the element nesting, ids, classes and attributes are unchanged by tag inference; only names of unnamed elements and element nesting of multi-selector chains are resolved.", "quantifier": "every document tree", "why_tests_cant": "Arbitrary nesting.", "anchors": ["/repo/mintyml/src/inference/engine/mod.rs::infer"]}
{"id": "C18", "title": "Unnamed elements get the documented name for their parent", "statement": "The name given to an unnamed element is the one the README tables assign from its parent element's name, its kind (line, paragraph, block, inline) and its position; for example rows in tables, cells in rows, list items in lists, options in select, and paragraphs/divs in sectioning content.", "quantifier": "every parent element and list of children", "why_tests_cant": "Rules that look at siblings must be right for every sibling list.", "anchors": ["/repo/mintyml/src/inference/definitions/mod.rs", "/repo/mintyml/src/inference/definitions/specialty.rs", "/repo/mintyml/src/inference/definitions/table.rs", "/repo/README.md"]}
{"id": "C19", "title": "After inference every element is named", "statement": "No element that was written with a selector (classes, id or attributes) reaches the output without a tag name, so its selector is never dropped.", "quantifier": "every document tree", "why_tests_cant": "Arbitrary nesting and contexts.", "anchors": ["/repo/mintyml/src/inference/engine/mod.rs::infer", "/repo/mintyml/src/output/mod.rs::write_open_tag"]}
{"id": "C20", "title": "Text is written unescaped only in script and style", "statement": "In HTML mode, text that is not an explicit interpolation is written without escaping only inside elements whose name makes the HTML parser treat content as raw text (script, style).", "quantifier": "every document tree and configuration", "why_tests_cant": "Security property over all documents and configurations.", "anchors": ["/repo/mintyml/src/inference/engine/mod.rs::inference_level", "/repo/mintyml/src/transform/metadata.rs::process_node", "/repo/mintyml/src/output/mod.rs::process_node"]}
{"id": "C21", "title": "Page completion yields one html root with everything in it", "statement": "With complete_page, the output document has a single top-level html element. If the source had a top-level html element the document is unchanged; if it had a body, it is wrapped only; otherwise the head holds exactly the head-only elements in source order and the body holds everything else in source order.", "quantifier": "every document tree", "why_tests_cant": "Every arrangement of top-level nodes.", "anchors": ["/repo/mintyml/src/transform/complete_page.rs::complete_page"]}
{"id": "C22", "title": "Page completion loses nothing", "statement": "Every selector, attribute, text, comment and element of the source document occurs in the completed page.", "quantifier": "every document tree", "why_tests_cant": "Every arrangement of top-level nodes and selectors.", "anchors": ["/repo/mintyml/src/transform/complete_page.rs::complete_page"]}
{"id": "C23", "title": "The language option sets lang on the document's top-level elements only", "statement": "With a language configured every top-level element gets that lang attribute, no other element changes, and without it nothing changes.", "quantifier": "every document tree and language", "why_tests_cant": "Every tree.", "anchors": ["/repo/mintyml/src/transform/mod.rs::apply_lang"]}
{"id": "C24", "title": "Metadata attributes do not change the rest of the output", "statement": "With metadata enabled (without extra elements), removing the metadata attributes and the namespace declaration from the tree gives the tree produced without metadata, and removing them from the tags of the output gives the output without metadata; errors are the same. With metadata elements, each text and each comment is put, as it is, in an element of its own (mty:text, mty:comment), elements without a name become mty:element, and nothing else changes.", "quantifier": "every document tree; every parser, source and configuration", "why_tests_cant": "Every tree.", "anchors": ["/repo/mintyml/src/transform/metadata.rs::add_metadata"]}
{"id": "C25", "title": "Metadata positions are well formed", "statement": "Every start/end pair recorded in the output satisfies start <= end; if the source ranges are valid, they lie inside the source and the range of an element includes the ranges of its content.", "quantifier": "every document tree", "why_tests_cant": "Every tree of ranges.", "anchors": ["/repo/mintyml/src/transform/metadata.rs::AttributeFactory", "/repo/mintyml/src/transform/metadata.rs::handle_element"]}
{"id": "C26", "title": "Multi-line blocks lose exactly their common indentation", "statement": "For a multi-line text block whose lines all begin with the indentation of the closing line, the output is the lines without that indentation and without the first and last line ends; other characters are unchanged.", "quantifier": "every block text", "why_tests_cant": "Every number of lines and every indentation.", "anchors": ["/repo/mintyml/src/output/utils.rs::trim_multiline"]}
{"id": "C27", "title": "Id, classes and attributes of a selector are combined in order", "statement": "The opening tag carries the first id, then all classes in source order as one space-separated class attribute, then every attribute in source order, with an attribute without value written as a bare name in HTML and with an empty value in XML.", "quantifier": "every selector", "why_tests_cant": "Selectors are unbounded lists.", "anchors": ["/repo/mintyml/src/document/selectors.rs", "/repo/mintyml/src/output/mod.rs::write_open_tag"]}
{"id": "C28", "title": "Building the document keeps all text of the source tree", "statement": "The text, comments and interpolations of the parsed lines occur in the document in source order, each exactly once, unless an error is reported.", "quantifier": "every syntax tree", "why_tests_cant": "Every nesting of lines, selectors, combinators and blocks.", "anchors": ["/repo/mintyml/src/document/line.rs", "/repo/mintyml/src/document/mod.rs::build_content"]}
{"id": "C29", "title": "Reported error ranges lie inside the source", "statement": "Every located error's range lies inside the source and on character boundaries whenever the parser's token ranges do, so displaying the error never panics and quotes the right text.", "quantifier": "every syntax tree with valid ranges", "why_tests_cant": "Every tree and every error.", "anchors": ["/repo/mintyml/src/document/mod.rs::BuildContext", "/repo/mintyml/src/error.rs::SyntaxError"]}
{"id": "C30", "title": "Lists in error messages read as English", "statement": "For n expected items the message shows all of them in order, separated by commas, with the conjunction before the last: 'a', 'a or b', 'a, b, or c'.", "quantifier": "every list", "why_tests_cant": "Unbounded lists.", "anchors": ["/repo/mintyml/src/error.rs::display_conjunction_list"]}
{"id": "C31", "title": "A default output file never overwrites its source", "statement": "When no destination is given, the output path differs from the source path, keeps its directory, and its extension is .html (or .xhtml with --xml) in place of a .mty/.minty extension, or appended to any other name.", "quantifier": "every path", "why_tests_cant": "Every path string.", "anchors": ["/repo/minty-cli/src/convert.rs::change_extension", "/repo/minty-cli/src/convert.rs::has_minty_extension", "/repo/minty-cli/src/convert.rs::convert_multiple"]}
{"id": "C32", "title": "Directory search finds exactly the MinTyML files within the depth limit", "statement": "Searching a directory with depth limit d returns exactly the files with a MinTyML extension in it and in subdirectories nested at most d deep, each once.", "quantifier": "every finite directory tree and every depth", "why_tests_cant": "Every tree.", "anchors": ["/repo/minty-cli/src/convert.rs::search_dir_inner", "/repo/minty-cli/src/convert.rs::get_recursion"]}
{"id": "C33", "title": "Different sources in one run are written to different files", "statement": "When several files are converted, no two of them are written to the same path.", "quantifier": "every list of distinct source files", "why_tests_cant": "Names range over all strings.", "anchors": ["/repo/minty-cli/src/convert.rs::convert_multiple", "/repo/minty-cli/src/convert.rs::change_extension"]}
{"id": "C34", "title": "The exit status tells whether every conversion succeeded, whatever the schedule", "statement": "The overall result of converting many files is success exactly when every conversion succeeded without error, independent of how the work is split among threads.", "quantifier": "every list of files and every bracketing of the parallel reduction", "why_tests_cant": "Schedules are unbounded.", "anchors": ["/repo/minty-cli/src/convert.rs::convert_multiple", "/repo/minty-cli/src/main.rs::main"]}
{"id": "C35", "title": "Every reported error reaches stderr exactly once, in order, in the selected mode", "statement": "For every sequence of events sent to the reporter and closed at the end, each error is written exactly once in the order sent; errors sent before the mode is set are written in the mode set later; nothing is written after close. A run prints one line for every complaint about every file it attempted, and for the error that ended it, in the form and on the stream that the mode selects, and nothing else.", "quantifier": "every event history", "why_tests_cant": "Histories are unbounded.", "anchors": ["/repo/minty-cli/src/error_reporter.rs::ErrorReporter::initialize"]}
{"id": "C36", "title": "The command decides source and destination as documented", "statement": "For every combination of kind of source and kind of destination the command either fails with an argument error naming the problem or converts exactly the named files to the named place; a destination that is an existing file is never used as a directory and an existing directory is never overwritten as a file.", "quantifier": "every combination of source and destination path kinds", "why_tests_cant": "Finite but large; the tests cover few of the combinations.", "anchors": ["/repo/minty-cli/src/convert.rs::convert_src_to_dest", "/repo/minty-cli/src/convert.rs::conversion_src_type", "/repo/minty-cli/src/convert.rs::conversion_dest_type"]}
{"id": "C37", "title": "Command line options map to the documented configuration", "statement": "xml, pretty/indent, complete-page/fragment, special-tag, fail-fast, metadata and metadata-elements set exactly the corresponding configuration fields; the last override of a special tag wins; metadata is off unless requested.", "quantifier": "every option combination and list of overrides", "why_tests_cant": "Lists of overrides are unbounded.", "anchors": ["/repo/minty-cli/src/convert.rs::as_config", "/repo/minty-cli/src/args.rs::ConvertOptions"]}
{"id": "C38", "title": "Names in markup cannot inject markup", "statement": "No tag name, attribute name, id, class or attribute value taken from the source lets the output contain a tag, attribute or comment that is not in the document tree.", "quantifier": "every source", "why_tests_cant": "Security property over all inputs.", "anchors": ["/repo/mintyml/src/output/mod.rs::write_open_tag", "/repo/mintyml/src/ast/selectors.rs"]}
{"id": "C39", "title": "Each element is written with each attribute at most once", "statement": "No opening tag carries two attributes with the same name (required for well-formed XML).", "quantifier": "every source", "why_tests_cant": "Every selector.", "anchors": ["/repo/mintyml/src/output/mod.rs::write_open_tag", "/repo/mintyml/src/transform/mod.rs::apply_lang"]}
{"id": "C40", "title": "A directory destination written with a trailing slash is treated as a directory", "statement": "A path that ends in a slash is recognised as naming a directory.", "quantifier": "every path", "why_tests_cant": "Every path string.", "anchors": ["/repo/minty-cli/src/utils.rs::has_trailing_slash", "/repo/minty-cli/src/convert.rs::PathType::for_path"]}
{"id": "C41", "title": "Building the document keeps all selectors of the source tree", "statement": "Every selector of the parsed lines (its tag, ids, classes, attribute names and values) occurs on an element of the document, in source order, exactly once, unless an error is reported.", "quantifier": "every syntax tree", "why_tests_cant": "Every nesting of lines, selectors, combinators and blocks.", "anchors": ["/repo/mintyml/src/document/line.rs", "/repo/mintyml/src/document/selectors.rs"]}
{"id": "C42", "title": "Only the library's text for a source is written, and only to its destination", "statement": "Every write made by the command is the text the library produced for a planned source, to that source's planned destination; without --forgiving nothing is written for a source whose conversion fails.", "quantifier": "every command line, file system, library result and schedule", "why_tests_cant": "Tests fix the files, the options and one thread schedule.", "anchors": ["/repo/minty-cli/src/convert.rs::convert", "/repo/minty-cli/src/convert.rs::convert_multiple"]}
{"id": "C43", "title": "Every failed run says why", "statement": "Unless --error-mode=silent is given, a run that exits with failure writes at least one error to stderr.", "quantifier": "every command line, file system, source and schedule", "why_tests_cant": "Every cause of failure must be followed through the reporter.", "anchors": ["/repo/minty-cli/src/convert.rs::convert", "/repo/minty-cli/src/error_reporter.rs::report", "/repo/minty-cli/src/main.rs::main"]}
{"id": "C44", "title": "A source that cannot be converted does not keep others from being converted", "statement": "Unless --fail-fast is given, if all sources can be read and outputs written, the output of every source the library converts is written, whatever other sources fail.", "quantifier": "every command line, file system, library result and schedule", "why_tests_cant": "Every subset of failing files and every schedule of the parallel jobs.", "anchors": ["/repo/minty-cli/src/convert.rs::convert", "/repo/minty-cli/src/convert.rs::convert_multiple"]}
{"id": "C45", "title": "The output says what the source says", "statement": "When conversion succeeds, the text that a reader of the output finds, white space aside, is the text written in the source, decoded, each piece once and in order; and the comments are those of the source (a complete page is first ordered into head and body).", "quantifier": "every source, tree the parser can give for it, and configuration", "why_tests_cant": "Every combination of elements, escapes, inference and page wrapping must neither lose, double nor invent text.", "anchors": ["/repo/mintyml/src/lib.rs::convert", "/repo/mintyml/src/document/mod.rs", "/repo/mintyml/src/transform/mod.rs", "/repo/mintyml/src/output/mod.rs"]}
{"id": "C46", "title": "Elements contain what the source says they contain", "statement": "When conversion succeeds, the elements of the output are nested as the README says: a line of text after a paragraph or a line element belongs to it, other lines of text are paragraphs where there are paragraphs, a block contains its lines, a selector and the combinators after it give one element inside another, an inline element is the element written in it; every element has the name and attributes of its selector, and white space stands between the same nodes.", "quantifier": "every source, tree the parser can give for it, and special tag configuration", "why_tests_cant": "Blocks, lines, chains, comments and inline elements can be combined and nested without bound.", "anchors": ["/repo/mintyml/src/document/line.rs", "/repo/mintyml/src/document/mod.rs", "/repo/mintyml/src/document/elements.rs", "/repo/mintyml/src/transform/mod.rs"]}
{"id": "C47", "title": "A source is converted exactly if it has no faults, and else its faults are reported", "statement": "If every delimiter of a source is closed, every part of a selector and every escape is well-formed, and the items of every line follow each other as they may (text and inline elements, or one multi-line text, block or element, with comments anywhere), conversion succeeds. If conversion succeeds, this is so. If the lines are right but there are faults, the errors reported are these faults, all of them, each once, in the order of the source.", "quantifier": "every source and tree the parser can give for it, every configuration", "why_tests_cant": "Acceptance and refusal are claims about all sources; faults can be nested and combined without bound.", "anchors": ["/repo/mintyml/src/document/line.rs", "/repo/mintyml/src/document/elements.rs", "/repo/mintyml/src/document/selectors.rs", "/repo/mintyml/src/document/text.rs", "/repo/mintyml/src/lib.rs::convert"]}
{"id": "C48", "title": "The JavaScript package does what the library does, as its options ask", "statement": "For every source string and well-typed options, convertForgiving of the JavaScript package is successful exactly if the library converts the source with the configuration that the options document, and has its output; otherwise it has an error and the best-effort output of the library. convert returns the same output or throws the same error. Strings survive the change of encoding.", "quantifier": "every JavaScript source string (UTF-16), every well-typed options object", "why_tests_cant": "Options, sources and failures combine without bound; the two languages disagree on strings and missing values.", "anchors": ["/repo/minty-wasm/src/lib.rs::convert", "/repo/minty-wasm/src/lib.rs::convert_inner", "/repo/minty-wasm/src/lib.rs::get_special_tags", "/repo/minty-wasm/src-ts/index.ts::MintymlConverter"]}
{"id": "C49", "title": "Errors of the JavaScript package describe and locate what is wrong", "statement": "When conversion fails, the error lists one entry for each error of the library, in its order; the entry's message is the library's message, source.slice(start, end) is the text the error points at, actual is this text; the message of the whole describes the errors.", "quantifier": "every source string, every parse the grammar allows, every options object", "why_tests_cant": "Depends on every character before the error (encodings) and on every kind of error.", "anchors": ["/repo/minty-wasm/src/lib.rs::to_js_error", "/repo/minty-wasm/src-ts/index.ts::convertForgiving"]}
{"id": "C50", "title": "Every source is read to its end, or refused", "statement": "Parsing any source ends. If it gives a syntax tree, the tree is a reading of the source by the grammar, from the first byte to the last: nothing is skipped but white space, and every recorded range is the text of its token. Hence what is proved of the readings of a source holds for the conversion of every source.", "quantifier": "every source string", "why_tests_cant": "A grammar with repetitions, lazy matches and lookahead can loop or skip text on inputs no test contains.", "anchors": ["/repo/mintyml/src/ast.rs", "/repo/mintyml/src/ast/text.rs", "/repo/mintyml/src/ast/selectors.rs", "/repo/mintyml/src/ast/elements.rs", "/repo/mintyml/src/ast/tokens.rs"]}
{"id": "C51", "title": "A source written as README describes becomes the HTML it stands for", "statement": "For every source made of the constructs README describes (paragraphs, line elements, blocks, chains of selectors, classes, ids, attributes, inline and special elements with lines in them, verbatim and raw text, interpolation, comments, multi-line texts, code blocks, escapes, blank lines), conversion succeeds and the output is the HTML of the elements, texts and comments so written: each selector its tag with its attributes, special elements with the names in the options, tags inferred by the tables, texts escaped, white space collapsed. Completion puts the page in html, head and body with the doctype; a language is added to the outermost elements. With indentation the tags and texts are the same, up to white space between them. No source can be read in two ways with different HTML.", "quantifier": "every document written with these constructs, nested to any depth; HTML and XML; any indentation; any special tags; completed or not; any language", "why_tests_cant": "Constructs nest and follow each other in unboundedly many ways; a test checks one combination.", "anchors": ["/repo/mintyml/src/lib.rs::convert", "/repo/mintyml/src/ast.rs", "/repo/mintyml/src/document", "/repo/mintyml/src/inference", "/repo/mintyml/src/output"]}
{"id": "C52", "title": "Any reasonable HTML is representable", "statement": "For every sequence of HTML elements (any attributes, any text, comments, any nesting; names in ASCII letters, digits, hyphens, colons), there is a source that is converted to their serialisation, in HTML and in XML, whatever the special tags are.", "quantifier": "every finite sequence of element trees", "why_tests_cant": "A claim that a source exists for each of infinitely many trees.", "anchors": ["/repo/README.md", "/repo/mintyml/src/lib.rs::convert"]}
{"id": "C53", "title": "A run changes its outputs and nothing else", "statement": "During and after a run of the command line tool, also one that fails or is stopped, no file other than the outputs is changed, nothing is removed, and what is new are outputs and the directories they are in. If the exit code is success, each output holds exactly the conversion of its source as it was at the beginning; after a search of a directory in which all sources have the same extension, in which order conversions proceed makes no difference.", "quantifier": "all plans, file systems, schedules of conversions, partial reads and writes, failures", "why_tests_cant": "A test sees few schedules, and no failures of the file system between two calls.", "anchors": ["/repo/minty-cli/src/io_helper.rs::write", "/repo/minty-cli/src/io_helper.rs::DefaultIoHelper", "/repo/minty-cli/src/convert.rs::convert"]}
{"id": "C54", "title": "Plain text becomes its paragraphs", "statement": "A text without the characters \\ [ ] { } < >, in which no line begins with three equal quotation marks, is never refused and never taken for markup: the output is one p element for each group of lines without an empty line between them, which holds the lines, trimmed, with a space between them and every special character escaped. Every character that is not white space is there.", "quantifier": "every such text (any Unicode, any white space and line ends), any language, special tags, HTML and XML, complete pages or not", "why_tests_cant": "Tests sample texts; which of infinitely many lines could be taken for a selector, an element or an interpolation is a question about the whole grammar.", "anchors": ["/repo/mintyml/src/ast.rs", "/repo/mintyml/src/ast/text.rs", "/repo/mintyml/src/document/line.rs", "/repo/mintyml/src/output/mod.rs"]}
{"id": "C55", "title": "Parts separated by an empty line are converted each for itself", "statement": "If two sources are converted, then the source made of the first, an empty line, and the second is converted to the output of the first, white space, and the output of the second.", "quantifier": "every two sources", "why_tests_cant": "Tests try some pairs; whether some token can reach over an empty line is a question about every pair of sources.", "anchors": ["/repo/mintyml/src/ast.rs", "/repo/mintyml/src/ast/text.rs", "/repo/mintyml/src/document/line.rs"]}
{"id": "C56", "title": "Line ends of other systems mean the same", "statement": "A source in which every line feed is replaced by carriage return and line feed is converted to the same output.", "quantifier": "every source, every options", "why_tests_cant": "Line ends can stand in every construct; tests with one kind of line ends say nothing about the other.", "anchors": ["/repo/mintyml/src/ast/tokens.rs", "/repo/mintyml/src/ast/text.rs", "/repo/mintyml/src/output/mod.rs"]}
{"id": "C57", "title": "A command line means what its words say", "statement": "`mintyml-cli convert ...` is accepted exactly if its words are uses of the documented options (in any of the usual spellings: `--opt value`, `--opt=value`, `-o value`, `-ovalue`, clusters of letters, `--` before files) that go together, and then the command is the one they say: the last use of an option counts, files and special tags add up, everything else is at its default. The order of options does not matter.", "quantifier": "every list of words, every command", "why_tests_cant": "The combinations of spellings, orders, conflicts and repetitions of seventeen options are not finite; tests try a handful.", "anchors": ["/repo/minty-cli/src/args.rs", "/repo/minty-cli/src/key_value.rs", "/repo/minty-cli/src/main.rs"]}
{"id": "C58", "title": "Every allowed command can be given, and no other", "statement": "For every command with one kind of source, compatible destination and options within their documented limits there is a command line that gives exactly it, whatever its files are called (also `-x` or `--`); no command line gives another one. So no run is without a source, and directories are searched deeply only for `--dir`.", "quantifier": "every command", "why_tests_cant": "It is about the absence of command lines for the other commands, and about names of every form.", "anchors": ["/repo/minty-cli/src/args.rs", "/repo/minty-cli/src/key_value.rs", "/repo/minty-cli/src/main.rs"]}
{"id": "C59", "title": "Errors of the command line are reported as --error-mode says", "statement": "If the command line is not accepted, the program reports this in the way `--error-mode` asks for (JSON if json, nothing if silent), and in every other mode with a message.", "quantifier": "every list of words", "why_tests_cant": "The fall-back parser sees the same words with other rules; for which words it accepts what the first refused is a question about all lists of words.", "anchors": ["/repo/minty-cli/src/args.rs", "/repo/minty-cli/src/key_value.rs", "/repo/minty-cli/src/main.rs"]}
{"id": "C60", "title": "JSON error output can be read", "statement": "With --error-mode=json, stderr consists of lines, each of which is one JSON object. Read as JSON, they are, in order, the errors that the default mode prints as text: category, name of the source, place, what was expected, message. This holds whatever characters the sources and the names of files contain.", "quantifier": "every run of every command, every content and name of files", "why_tests_cant": "Messages contain pieces of the source, and names of files contain any character; whether every such text is escaped so that lines and objects stay intact is a question about all of them.", "anchors": ["/repo/minty-cli/src/error_reporter.rs"]}
{"id": "C61", "title": "The program as a whole does its job", "statement": "From the words of the command line on: if the command is accepted and its sources are well-formed (C51), readable, and their outputs writable, the program writes exactly the page of each source to its output, prints nothing on stderr and exits with success; in particular `convert --stdin --stdout --fragment` turns plain text on stdin into its paragraphs on stdout.", "quantifier": "every command line, file system, source, and parallel schedule", "why_tests_cant": "It composes argument parsing, planning, scheduling, parsing, inference and output for all inputs at once.", "anchors": ["/repo/minty-cli/src/main.rs", "/repo/minty-cli/src/args.rs", "/repo/minty-cli/src/convert.rs", "/repo/mintyml/src/lib.rs"]}
{"id": "C62", "title": "A closing bracket that closes nothing is refused", "statement": "If a well-formed source (C51) is followed by a closing bracket (`}`, `)>`, or one that closes an element without a selector, as `/>`), then, whatever follows, the source is refused in both modes with the parser's error alone, and forgiving mode gives no output: text after the bracket is never silently dropped.", "quantifier": "every source of the described language, every closing bracket, every rest", "why_tests_cant": "The grammar ends at the first thing it cannot read; that nothing before the bracket can be read differently so that the bracket gets a partner, and that nothing after it can rescue the source, concerns all sources and all continuations.", "anchors": ["/repo/mintyml/src/ast.rs", "/repo/mintyml/src/document.rs", "/repo/mintyml/src/lib.rs"]}
{"id": "C63", "title": "The indentation of the source does not matter", "statement": "Two sources that are line by line the same but for the white space at the begin of lines (spaces, tabulators, other white space, any number, lines shifted differently) are converted to the same output, unless a text of several lines, a verbatim text, a comment or the value of an attribute contains the line: lines, blocks, nested elements, paragraphs and attribute lists are never told apart by indentation.", "quantifier": "every source of the described language without multi-line texts, every change of its indentation, every configuration of C51", "why_tests_cant": "A test compares a source with a few indentations; that no place of the grammar depends on white space at the begin of a line, alone or together with any change elsewhere, concerns all sources and all indentations of each of its lines.", "anchors": ["/repo/mintyml/src/ast.rs", "/repo/mintyml/src/document.rs", "/repo/README.md"]}
{"id": "C64", "title": "The preview of the web demo catches up", "statement": "Whatever the user types, selects and resets, and however slowly or in whatever order timers, requests and the worker go: if the worker answers its requests, then when nothing is under way any more the output shown is the output of the text in the editor (the page it stands for, if it is a source as in C51), and the messages shown are those of its errors; when the user stops, this state is reached within a bounded number of steps, without further input. A request that fails does not stop the preview.", "quantifier": "every sequence of events (edits, selections, timers, responses, requests) with every timing, every text, converter, local storage", "why_tests_cant": "The demo debounces with a dirty flag, timers and a time limit; lost updates show only under particular interleavings of edits, responses and timers.", "anchors": ["/repo/web-demo/src/index.ts", "/repo/web-demo/src/worker.ts"]}
{"id": "C65", "title": "The web demo keeps what is typed", "statement": "What the local storage holds under an example is what the editor held while that example was loaded (or what was stored before); only a reset removes it, and only for the current example; the names with a star are those with a stored text. What the user types is stored once nothing is under way, and what the user did not type is not stored.", "quantifier": "every sequence of events with every timing, every text, converter, local storage", "why_tests_cant": "Whether a text is stored depends on the order of edits, responses and timers, of which there are infinitely many.", "anchors": ["/repo/web-demo/src/index.ts"]}
{"id": "C66", "title": "The web demo shows the example chosen last", "statement": "When no example is being fetched, the editor holds the example that the list shows as selected, whatever the order in which requests for examples were answered.", "quantifier": "every sequence of events with every timing", "why_tests_cant": "Requests may be answered in any order, at any time between other events.", "anchors": ["/repo/web-demo/src/index.ts"]}
{"id": "C67", "title": "Indented output shows how elements are nested", "statement": "With an indentation, the content of every element written with a block begins and ends on lines of its own, which are indented by one step more than the element (html excepted), and its closing tag stands where its opening tag's line begins; line elements, paragraphs, inline elements and the outer elements of a chain are kept in a line; white space is written once, never twice. The output for any indentation, and for none, is the same sequence of tags, texts and comments, laid out by one rule.", "quantifier": "every source, parser, configuration and indentation", "why_tests_cant": "Whether a line break is written depends on what was written before it (the following_space flag), on the kind of every element around, and on the depth; tests show a few documents.", "anchors": ["/repo/mintyml/src/output/mod.rs", "/repo/mintyml/src/document/elements.rs"]}
{"id": "C68", "title": "The prefix of metadata is declared wherever it is used", "statement": "With metadata, in XML: every element of the output that is in no other element declares xmlns:mty with the documented name, so that in all of the output every mty: element and attribute stands where the prefix is declared, whatever the source, page completion, the language option, unnamed elements and metadata elements put at the top.", "quantifier": "every source, parser and configuration with XML and metadata", "why_tests_cant": "Which nodes are at the top depends on the builder (only line, block, paragraph and code elements may stand there), on page completion and on inference, which names all of those; the parsers of the tests do not check namespaces.", "anchors": ["/repo/mintyml/src/transform/metadata.rs", "/repo/docs/general/metadata.md"]}
{"id": "C69", "title": "The output is not larger than the source accounts for", "statement": "Conversion does not blow up: the size in bytes of what is written is at most a constant times the size of the source, for a given language and names of special elements, when there is no indentation, and at most a constant times its square, times the length of one step, with indentation - whatever elements are nested, inferred, completed, chained, interpolated, escaped or described by metadata.", "quantifier": "every source of less than 2^64-1 bytes, every configuration, every parser that agrees with the grammar", "why_tests_cant": "Repeated copying (of selectors along a chain, of content through inference, of names from options) is seen only in sources nobody writes by hand; tests compare the output of short documents.", "anchors": ["/repo/mintyml/src/document/elements.rs", "/repo/mintyml/src/inference/mod.rs", "/repo/mintyml/src/transform/metadata.rs", "/repo/mintyml/src/output/mod.rs"]}
{"id": "C70", "title": "Recorded positions of texts are where the texts are written", "statement": "The range that the document keeps for a text, comment or interpolation, and that metadata records on mty:text and mty:comment, is the place in the source where it is written: the source there has the delimiters of that kind of text (for code and multi-line text they stand directly before and after it), and what the text says is what stands between them. Without page completion the texts of the document have the order of the source and none occurs twice.", "quantifier": "every source, every configuration, every parser that agrees with the grammar", "why_tests_cant": "A range that is off by the length of a delimiter, or that is swapped with the range of the content, is still on character boundaries and inside the source, and the repository's tests do not compare positions; editors that map the output back to the source do.", "anchors": ["/repo/mintyml/src/document/text.rs", "/repo/mintyml/src/document/line.rs", "/repo/mintyml/src/transform/metadata.rs", "/repo/docs/general/metadata.md"]}
{"id": "C71", "title": "Recorded positions of elements are where the elements are written", "statement": "For a source without errors, every element's recorded range is valid, lies in that of the element around it, and holds the element as the syntax has it: a block from its first selector (or its brace) to its closing brace, a line element from its first selector to the end of its last line, an inline or special element with its delimiters. Its content range starts right after the opening delimiter (and white space) and ends right before the closing one. The selectors stand in order between the start of the range and the start of the content, and what is inside the element stands between the start of the content and the end of the range. Blocks after a combinator and blocks followed by something in their line are set aside (there the positions are not nested, see C25).", "quantifier": "every source, every syntax tree that agrees with the grammar, every nesting depth", "why_tests_cant": "Every source and every nesting of the kinds of elements.", "anchors": ["/repo/mintyml/src/document/elements.rs::build_block", "/repo/mintyml/src/document/elements.rs::build_inline", "/repo/mintyml/src/document/elements.rs::build_inline_special", "/repo/mintyml/src/document/line.rs::post_child_combinator", "/repo/mintyml/src/document/line.rs::add_line"]}
{"id": "C72", "title": "Errors are listed in the order of the source, each fault once", "statement": "When a conversion fails with syntax errors, the list has them in the order of their places in the source, none overlapping the next, and no error is listed twice. For errors of single items (a delimiter that is not closed, a part of a selector that is none, a malformed escape) this is so for every source, and each is a fault that the source has.", "quantifier": "every source, every parser that agrees with the grammar, every configuration that reports all errors or stops at the first", "why_tests_cant": "Sources nest and combine faults without bound; a reordering or a duplicate appears only for particular combinations of nesting.", "anchors": ["/repo/mintyml/src/document/line.rs::build_line", "/repo/mintyml/src/document/elements.rs::build_inline", "/repo/mintyml/src/error.rs", "/repo/mintyml/src/lib.rs::convert"]}
{"id": "C73", "title": "What a run leaves behind does not depend on the order in which its conversions take turns", "statement": "If two runs of the same command on the same files both come to an end without a failing call of the operating system, they report the same results, write the same standard output, and leave the same files and directories, whatever the order in which the conversions (which run in parallel) took their steps.", "quantifier": "every list of conversions, all files, all interleavings of their steps, any converter", "why_tests_cant": "The interleavings of parallel conversions are chosen by the scheduler and are too many to try; tests see a few of them.", "anchors": ["/repo/minty-cli/src/convert.rs", "/repo/minty-cli/src/io_helper.rs"]}
{"id": "C74", "title": "A run comes to an end, and is not stuck before", "statement": "If the outputs of a command are apart from each other and from its sources, the number of steps that get a conversion further is bounded, in any interleaving and whether or not calls fail. If moreover sources can be read, outputs have a name and are not directories, and no file is where a directory has to be, then each conversion that has not ended can go on without failing, whatever the others have done, and the whole run can be completed from any point it has reached without a failure.", "quantifier": "every list of conversions, all files, all interleavings, any converter", "why_tests_cant": "Termination and absence of conflicts between parallel conversions (e.g. both making the same directory) are claims about all interleavings.", "anchors": ["/repo/minty-cli/src/convert.rs", "/repo/minty-cli/src/io_helper.rs::write", "/repo/minty-cli/src/io_helper.rs::read"]}
{"id": "C75", "title": "The web demo marks errors where they are", "statement": "When the result of a conversion reaches the page and the text has not been changed since, each error that the library reports is marked once, in order, with its message, and the mark begins and ends at the row and column of the part of the text that the error points at, whatever the line ends of the text are.", "quantifier": "every text, every state of the demo, any classification of letters and any parse error that quotes the source", "why_tests_cant": "Positions pass through UTF-8 offsets, UTF-16 indices and rows of an editor with three kinds of line ends; examples in ASCII do not show a confusion of these units.", "anchors": ["/repo/web-demo/src/index.ts:238-275", "/repo/minty-wasm/src/lib.rs:30-80", "/repo/mintyml/src/error.rs"]}
{"id": "C76", "title": "The number of reported errors is at most quadratic in the source", "statement": "When a conversion fails with syntax errors, a source of n bytes gives at most 2n^2+3n+1 of them, however deep its elements are nested; at most n+1 of them are about single items, and if each line is one that the language allows, all errors together are at most n.", "quantifier": "every source, every parser that agrees with the grammar, every configuration", "why_tests_cant": "The builder copies nodes of inner lines to outer lines and looks at them again; whether this can blow up shows only at unbounded nesting.", "anchors": ["/repo/mintyml/src/document/line.rs::validate_line", "/repo/mintyml/src/document/line.rs::extend_line", "/repo/mintyml/src/document/elements.rs::build_inline", "/repo/mintyml/src/lib.rs::convert"]}
{"id": "C77", "title": "Options do not decide what is an error", "statement": "Whether a source is converted or refused does not depend on the options (indentation, page completion, special tags, metadata, XML), and if all errors are to be listed, every configuration gives the same list of syntax errors.", "quantifier": "every source, every parser, every two configurations", "why_tests_cant": "Configurations and sources would have to be combined without bound; a test compares a handful of pairs.", "anchors": ["/repo/mintyml/src/lib.rs::convert", "/repo/mintyml/src/lib.rs::convert_to_internal", "/repo/mintyml/src/transform/complete_page.rs", "/repo/mintyml/src/config.rs"]}
{"id": "C78", "title": "Reloading the web demo brings back the example and the text", "statement": "When nothing is under way in the demo, the URL names the example that is shown, and opening the page again with this URL and the same local storage brings back the same example with the same text, edited or not. The other parameters of the URL stay as they are.", "quantifier": "every run of the demo (edits, selections, resets, links, timers, fetches and worker messages in any order), every URL and local storage at the beginning", "why_tests_cant": "What is stored depends on the interleaving of typing, timers, fetched examples and replies of the worker; a test sees a few orders.", "anchors": ["/repo/web-demo/src/index.ts:13-42", "/repo/web-demo/src/index.ts:182-203", "/repo/web-demo/src/index.ts:300-333", "/repo/web-demo/src/index.ts:350-362"]}
{"id": "C79", "title": "A link to a place in the demo's page shows that place", "statement": "When the demo is opened with a URL that ends in #id, or a link to #id is followed, the page is scrolled to the element with that id as soon as an output is shown that has it; it is never scrolled to anything else.", "quantifier": "every id, every URL, every run of the demo, any converter", "why_tests_cant": "The place may have to be looked for again after every output, until it is there, in any order of events.", "anchors": ["/repo/web-demo/src/index.ts:173-175", "/repo/web-demo/src/index.ts:182-193", "/repo/web-demo/src/index.ts:205-232"]}
{"id": "C80", "title": "The demo's page view is that of the latest output alone", "statement": "The frame of the web demo shows the page of the output that is shown: its body, and its title, links and styles in their order, beside what the demo itself put there. Nothing is left of the outputs before.", "quantifier": "every run of the demo, any converter, any reader of HTML", "why_tests_cant": "What the frame holds depends on all outputs that were ever put into it; a test sees short sequences of ordinary pages.", "anchors": ["/repo/web-demo/src/index.ts:75-98", "/repo/web-demo/src/index.ts:148-176", "/repo/web-demo/src/index.ts:238-251"]}
