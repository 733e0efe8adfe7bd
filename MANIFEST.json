{
 "claims": [
  {
   "property": "C01",
   "status": "proved",
   "theorems": [
    "C01_decode_exact",
    "C01_decode_or_error",
    "C01_decode_unique"
   ],
   "note": "The hexadecimal numeral accepted includes an optional leading plus sign (see C03)."
  },
  {
   "property": "C02",
   "status": "proved",
   "theorems": [
    "C02_ranges_ordered",
    "C02_ranges_point_at_malformed",
    "C02_segmentation",
    "C02_none_iff_well_formed"
   ],
   "note": ""
  },
  {
   "property": "C03",
   "status": "partial",
   "theorems": [
    "C03_accepts_undocumented_refuted",
    "C03_rejects_documented_refuted",
    "C03_documented_partial"
   ],
   "note": "REFUTED both ways: \\x+5 is accepted, backslash-space is documented but rejected. Holds for texts without these."
  },
  {
   "property": "C04",
   "status": "partial",
   "theorems": [
    "C04_html_inert",
    "C04_html_lossless_refuted",
    "C04_html_lossless_partial"
   ],
   "note": "Inertness proved in full. Losslessness REFUTED for NUL and 27 C1 controls (HTML readers remap those numeric references); proved for all other characters."
  },
  {
   "property": "C05",
   "status": "partial",
   "theorems": [
    "C05_xml_inert",
    "C05_xml_lossless_refuted",
    "C05_xml_lossless_partial"
   ],
   "note": "Inertness proved in full. Losslessness REFUTED for control characters XML forbids; proved for every XML character."
  },
  {
   "property": "C06",
   "status": "proved",
   "theorems": [
    "C06_comment_body",
    "C06_comment_reads_back",
    "C06_comment_unchanged"
   ],
   "note": ""
  },
  {
   "property": "C26",
   "status": "proved",
   "theorems": [
    "C26_trim",
    "C26_trim_short"
   ],
   "note": ""
  },
  {
   "property": "C07",
   "status": "proved",
   "theorems": [
    "C07_output_reads_back",
    "C07_source_reads_back"
   ],
   "note": "From the source: for plain names and content that fits its elements (SpecOrdinary.v). For every configuration whose indentation is white space and every tree whose names and characters HTML/XML can express (Readable): at most one tag per element (what inference produces) and raw text only directly in script/style."
  },
  {
   "property": "C08",
   "status": "proved",
   "theorems": [
    "C08_balanced",
    "C07_source_reads_back"
   ],
   "note": "Under the same Readable condition as C07."
  },
  {
   "property": "C09",
   "status": "proved",
   "theorems": [
    "C09_void_and_self_closed",
    "C09_void_names"
   ],
   "note": ""
  },
  {
   "property": "C10",
   "status": "proved",
   "theorems": [
    "C10_spaces_exact",
    "C10_source_spaces"
   ],
   "note": "C10_source_spaces: for every source."
  },
  {
   "property": "C11",
   "status": "partial",
   "theorems": [
    "C11_indent_only_space",
    "C11_inline_identical",
    "C11_source_indent",
    "C11_raw_identical_refuted"
   ],
   "note": "White-space-only difference and identity of inline content proved in full; the clause that raw elements are byte-identical is REFUTED (a line end in a script block is written as a space or as a line feed)."
  },
  {
   "property": "C27",
   "status": "proved",
   "theorems": [
    "C27_opening_tag",
    "C38_names_from_source"
   ],
   "note": "C38_names_from_source: the attributes are those written by one selector of the source, decoded, followed by metadata and language."
  },
  {
   "property": "C16",
   "status": "proved",
   "theorems": [
    "C16_names_kept",
    "C16_names_in_order"
   ],
   "note": ""
  },
  {
   "property": "C17",
   "status": "proved",
   "theorems": [
    "C16_names_kept",
    "C17_content_kept"
   ],
   "note": "Hypothesis: paragraphs carry no selector (what the builder produces)."
  },
  {
   "property": "C18",
   "status": "partial",
   "theorems": [
    "C18_inference_by_context",
    "C18_readme_tables_partial",
    "C18_readme_contexts",
    "C18_readme_by_kind",
    "C18_readme_details",
    "C18_thead_refuted",
    "C18_link_in_paragraph_refuted",
    "C18_link_in_section_refuted",
    "C18_imagemap_refuted",
    "C18_details_comment_refuted"
   ],
   "note": "Inference is proved total and equal to a one-pass table-driven naming, for all trees. README's tables hold entry by entry except: REFUTED for th in thead, links/custom elements, imagemap, and details beginning with a comment."
  },
  {
   "property": "C19",
   "status": "partial",
   "theorems": [
    "C19_named_refuted",
    "C19_named_partial"
   ],
   "note": "REFUTED: an inline element written with a block, and a block directly in picture, stay unnamed and lose their selector. Proved for all other trees."
  },
  {
   "property": "C20",
   "status": "partial",
   "theorems": [
    "C20_raw_marks",
    "C20_text_escaped",
    "C20_written_raw",
    "C20_metadata_elements_refuted"
   ],
   "note": "Proved for inference followed by output. REFUTED with metadata elements: all ordinary text is then written unescaped."
  },
  {
   "property": "C15",
   "status": "partial",
   "theorems": [
    "C15_special_tags_partial",
    "C15_code_block_refuted"
   ],
   "note": "REFUTED for code blocks: the container is named by the emphasis option and its own option is ignored. Proved for every other kind and every configuration."
  },
  {
   "property": "C21",
   "status": "partial",
   "theorems": [
    "C21_html_unchanged",
    "C21_body_wrapped",
    "C21_head_and_body",
    "C21_one_root_partial",
    "C21_single_root_refuted"
   ],
   "note": "The three cases are proved in full; 'a single top-level html element' is REFUTED when the source itself has several, or content beside one."
  },
  {
   "property": "C22",
   "status": "partial",
   "theorems": [
    "C22_nothing_lost_partial",
    "C22_head_refuted"
   ],
   "note": "REFUTED: further selectors and the ids, classes and attributes of a top-level head element are lost. Proved when head elements are plain."
  },
  {
   "property": "C23",
   "status": "proved",
   "theorems": [
    "C23_lang"
   ],
   "note": ""
  },
  {
   "property": "C24",
   "status": "proved",
   "theorems": [
    "C24_metadata_only_adds",
    "C24_metadata_elements",
    "C24_output"
   ],
   "note": "C24_output: on the text of the output, for every parser, slicing function and source."
  },
  {
   "property": "C25",
   "status": "partial",
   "theorems": [
    "C25_recorded",
    "C25_inside",
    "C25_nested_partial",
    "C25_includes_partial",
    "C25_includes_refuted",
    "C25_comment_refuted"
   ],
   "note": "Start <= end and recorded values: proved. All recorded positions are character boundaries of the source: proved, for parsers that agree with the grammar. Nesting REFUTED: in \"div> p> { x }\" the range of div (and even its own content range) does not include that of the p inside it; in \"p> x <(a { y } <!c!>)>\" that of p does not include that of a. Apart from such lines (a block after a combinator, a block followed by something in its line) nesting is proved for every source without errors (C25_includes_partial); the transforms keep nesting where the built tree has it (C25_nested_partial)."
  },
  {
   "property": "C12",
   "status": "proved",
   "theorems": [
    "C12_strict_forgiving"
   ],
   "note": "For any parser and any slicing function. Also that conversion always ends (no result None), and that the text returned with an error is exactly what convert_to wrote."
  },
  {
   "property": "C13",
   "status": "proved",
   "theorems": [
    "C13_fail_fast"
   ],
   "note": "For any parser. With fail_fast the listed errors are a non-empty initial part of those listed without it (all errors found in one text are reported together)."
  },
  {
   "property": "C14",
   "status": "proved",
   "theorems": [
    "C14_unknown_error"
   ],
   "note": "For any parser and slicing function: an error without location implies a malformed escape in an attribute name or value, class or id of a selector of the tree, or in the configured language."
  },
  {
   "property": "C28",
   "status": "partial",
   "theorems": [
    "C28_texts_kept_partial",
    "C28_text_lost_refuted"
   ],
   "note": "For any parser: nothing is invented, doubled or reordered; nothing is lost when no error is reported and no line is a child combinator leading to a block followed by more. REFUTED without that proviso: '> { x } foo' loses foo silently."
  },
  {
   "property": "C41",
   "status": "partial",
   "theorems": [
    "C41_selectors_kept_partial",
    "C41_selector_lost_refuted"
   ],
   "note": "For any parser, under C28's proviso and when no line ends in a selector. REFUTED otherwise: 'foo [x]' drops the selector silently."
  },
  {
   "property": "C29",
   "status": "proved",
   "theorems": [
    "C29_errors_in_source",
    "C29_messages",
    "C29_document_ranges"
   ],
   "note": "For any parser whose answer is a reading of the source (Grammar.v models tokens and rules) or an error that quotes the source."
  },
  {
   "property": "C30",
   "status": "partial",
   "theorems": [
    "C30_lists_partial",
    "C30_two_items_refuted",
    "C30_reported_lists"
   ],
   "note": "REFUTED for two items ('textor space'); proved for every other list, and the converter is proved to report only one-item lists."
  },
  {
   "property": "C31",
   "status": "proved",
   "theorems": [
    "C31_default_output"
   ],
   "note": "Any file system and arguments without --out and --stdout; any source path, compared by path components."
  },
  {
   "property": "C32",
   "status": "partial",
   "theorems": [
    "C32_search_partial",
    "C32_other_entry_refuted"
   ],
   "note": "Proved for any finite tree of files and directories, any depth, with and without output directory. REFUTED with other entries (pipes, symbolic links to files, which are not followed): a recursive search then fails."
  },
  {
   "property": "C33",
   "status": "partial",
   "theorems": [
    "C33_distinct_refuted",
    "C33_same_extension_partial"
   ],
   "note": "REFUTED: a.mty with a.minty, x/a.mty with y/a.mty and -o. Proved for a search whose files all have the same extension."
  },
  {
   "property": "C34",
   "status": "proved",
   "theorems": [
    "C34_exit_status"
   ],
   "note": "Any split of the parallel reduction, any order, any set of jobs skipped after an error; the file system does not change during the run."
  },
  {
   "property": "C35",
   "status": "proved",
   "theorems": [
    "C35_reporter",
    "C35_run",
    "C35_lines"
   ],
   "note": "Any history of events with a close; and what a run prints: the lines for the complaints about each file attempted, in the order of finishing, then the line for the error that ended the run."
  },
  {
   "property": "C36",
   "status": "partial",
   "theorems": [
    "C36_sources_partial",
    "C36_named_files",
    "C36_destination_partial",
    "C36_errors_partial",
    "C36_messages",
    "C36_message_refuted",
    "C36_parent_refuted",
    "C36_dir_base_refuted",
    "C36_outside_refuted",
    "C36_category_refuted"
   ],
   "note": "REFUTED: paths ending in '..' or '.' search another directory; --dir is not applied when looking up named files; absolute paths with --dir and --out are written outside the output directory; misuse of --stdout is an 'Internal error'; a missing file named without a directory is reported as a file in the root directory. Proved: a command is refused exactly if the file system fails or there is one of seven reasons, which the message tells; only named files are read, every named file is converted, outputs lie in the output directory or are the output file, and errors are of the file system or about arguments, outside those cases."
  },
  {
   "property": "C37",
   "status": "partial",
   "theorems": [
    "C37_options",
    "C37_metadata_refuted"
   ],
   "note": "All fields proved; REFUTED: metadata is turned on by --metadata-elements=false."
  },
  {
   "property": "C40",
   "status": "partial",
   "theorems": [
    "C40_trailing_slash_refuted"
   ],
   "note": "REFUTED: has_trailing_slash is proved to hold of the root directory only; -o site/ is taken for a file."
  },
  {
   "property": "C42",
   "status": "proved",
   "theorems": [
    "C42_written"
   ],
   "note": "Any library functions, arguments, file system and schedule."
  },
  {
   "property": "C43",
   "status": "partial",
   "theorems": [
    "C43_reported_refuted",
    "C43_reported_partial"
   ],
   "note": "REFUTED: an error without location prints nothing. Proved to be the only case."
  },
  {
   "property": "C44",
   "status": "proved",
   "theorems": [
    "C44_others_converted"
   ],
   "note": "Any library functions, arguments and schedule, if sources can be read and outputs written."
  },
  {
   "property": "C38",
   "status": "partial",
   "theorems": [
    "C38_no_injection_partial",
    "C38_names_from_source",
    "C38_no_injection_refuted"
   ],
   "note": "REFUTED: names of attributes are decoded but not escaped (p[\\>\\<script\\>...]), names of elements are copied with their escapes. Proved when names are written without escapes: every opening tag that a reader finds in the output has its name and attributes from one selector of the source or from the converter."
  },
  {
   "property": "C39",
   "status": "partial",
   "theorems": [
    "C39_attribute_once_partial",
    "C39_attribute_once_refuted"
   ],
   "note": "REFUTED: p[a=1 a=2], p#y[id=z], lang with the option. Proved when the attributes of each selector differ and none is one that the converter adds."
  },
  {
   "property": "C45",
   "status": "partial",
   "theorems": [
    "C45_texts_in_output_partial",
    "C45_white",
    "C28_text_lost_refuted"
   ],
   "note": "REFUTED for a child combinator leading to a block followed by text (C28). Proved for sources with plain names, content that fits its elements and no such line, without added metadata elements; texts are compared without white space."
  },
  {
   "property": "C46",
   "status": "partial",
   "theorems": [
    "C46_structure_partial",
    "C46_one_reading",
    "C28_text_lost_refuted",
    "C22_head_refuted"
   ],
   "note": "Proved against a separate reading of the source (SpecShape.v) that is shown to be unique. REFUTED for a child combinator leading to a block followed by more (C28). With page completion, metadata and language; REFUTED for a completed page whose head has attributes or more selectors (C22)."
  },
  {
   "property": "C47",
   "status": "partial",
   "theorems": [
    "C47_accepts",
    "C47_refuses_partial",
    "C47_reported_partial",
    "C47_accepted_refuted"
   ],
   "note": "For any parser and slicing function. Acceptance: proved. REFUTED: what follows '> { ... }' on a line is not looked at, so '> { x } <! c' (comment not closed) and '> { x } foo' are converted. Refusal: proved when no line has something after such a block or ends in a selector. Reporting: proved when lines are right and have nothing after such a block."
  },
  {
   "property": "C48",
   "status": "proved",
   "theorems": [
    "C48_results",
    "C48_strings",
    "C48_units"
   ],
   "note": "For any parser and slicing function; wasm-bindgen's conversions are assumed as Wasm.v says. Options of the wrong type are outside the claim."
  },
  {
   "property": "C49",
   "status": "partial",
   "theorems": [
    "C49_entries",
    "C49_locations_partial",
    "C49_locations_refuted",
    "C49_message_refuted"
   ],
   "note": "Entries and their messages: proved. REFUTED: start and end are byte offsets of UTF-8, not positions in the JavaScript string (proved right for ASCII sources); actual is set for parse errors only, so that the message of the whole reads Unexpected 'undefined' for all other errors."
  },
  {
   "property": "C50",
   "status": "proved",
   "theorems": [
    "C50_every_source_is_read",
    "C50_readings"
   ],
   "note": "For the parser of Parser.v; what gramma's operators do is assumed as its head says, and checked by running all tests of the repository and the README on the model (RepoTests.v, Readme.v)."
  },
  {
   "property": "C51",
   "status": "proved",
   "theorems": [
    "C51_source_converts",
    "C51_source_indented",
    "C51_with_metadata",
    "C51_without_code_blocks",
    "C51_unambiguous",
    "C51_special",
    "C51_code_block"
   ],
   "note": "For the parser of Parser.v and any options without metadata elements; the language without a backslash, which is decoded (finding); with completion, a head has one selector, which is a name only, since others are lost (C22). The option for the container of code blocks is not read by the code (finding): C51_source_converts asks for it to be the one of emphases, which is read in its place; C51_without_code_blocks does not. Not in the description (SpecWrite.v): interpolation with two braces, comments after a block that begins with > in its line, in inline elements or between a selector and what follows it, empty multi-line texts, selectors with escapes. Hypothesis about is_alphanumeric: as usual in ASCII, and not true of white space."
  },
  {
   "property": "C52",
   "status": "proved",
   "theorems": [
    "C52_html_is_representable"
   ],
   "note": "Elements side by side are separated by a space. Text at top level is left out: it is always put into a paragraph. Comments that contain two hyphens, begin with > or ->, end with a hyphen, or contain an unbalanced <! or !> are left out: the code separates the hyphens, and has no escapes in comments. script and style hold raw text; the other raw text elements of the standard (xmp, iframe, noembed, noframes) are treated as ordinary ones by the code and by serial."
  },
  {
   "property": "C53",
   "status": "partial",
   "theorems": [
    "C53_nothing_else",
    "C53_places",
    "C53_results_partial",
    "C53_site",
    "C53_torn_refuted",
    "C53_source_refuted",
    "C53_old_output_lost_refuted"
   ],
   "note": "Nothing else is changed, in any execution: proved. Results: proved if outputs are apart from each other and from the sources, which a search for one extension guarantees (C53_site). REFUTED otherwise: mixed outputs, sources read while another conversion has emptied them; and a failed write loses the old output. Files as in Disk.v: no links, no changes by others."
  },
  {
   "property": "C54",
   "status": "proved",
   "theorems": [
    "C54_plain_text",
    "C54_plain_page",
    "C54_characters"
   ],
   "note": "For the parser of Parser.v, without metadata and indentation; the language without a backslash. A corollary of C51 for the sources that are plain text."
  },
  {
   "property": "C55",
   "status": "partial",
   "theorems": [
    "C55_parts",
    "C55_parts_refuted"
   ],
   "note": "REFUTED for arbitrary sources: two blocks can together be an interpolation. Proved for all sources that C51 describes, any options without indentation, metadata and completion, where the second does not begin with a comment."
  },
  {
   "property": "C56",
   "status": "partial",
   "theorems": [
    "C56_source",
    "C56_plain_text",
    "C56_line_ends_refuted"
   ],
   "note": "REFUTED: in code blocks, texts of several lines and verbatim texts the carriage returns become characters of the output. Proved for plain text in the sense of C54 and for all sources in the sense of C51 but those with texts of several lines or with a line feed in a verbatim text, a comment, an interpolation or the value of an attribute."
  },
  {
   "property": "C57",
   "status": "proved",
   "theorems": [
    "C57_command_line",
    "C57_order"
   ],
   "note": "clap's parser is modelled from its documentation (Args.v); words are strings."
  },
  {
   "property": "C58",
   "status": "proved",
   "theorems": [
    "C58_allowed",
    "C58_sources"
   ],
   "note": "clap's parser is modelled from its documentation (Args.v); words are strings."
  },
  {
   "property": "C59",
   "status": "partial",
   "theorems": [
    "C59_messages",
    "C59_error_mode_refuted"
   ],
   "note": "REFUTED: --error-mode=json alone fails without a message; convert --error-mode=json with an error in the command line writes clap's text. Proved: silent failure exactly for the words --error-mode M with M not default, and every other command line that is not accepted gets a message or the help."
  },
  {
   "property": "C60",
   "status": "proved",
   "theorems": [
    "C60_json",
    "C60_at_least_the_text"
   ],
   "note": "For any library functions, file system and Debug. serde_json is modelled (Json.v); paths are strings."
  },
  {
   "property": "C61",
   "status": "proved",
   "theorems": [
    "C61_program",
    "C61_site",
    "C61_filter",
    "C61_plain_text"
   ],
   "note": "For the parser of Parser.v; without indentation and metadata, as C51. C61_site: with the file system of Disk.v; the others with that of Cli.v (does not change during a run)."
  },
  {
   "property": "C62",
   "status": "proved",
   "theorems": [
    "C62_stray"
   ],
   "note": "For the parser of Parser.v and sources of the described language (C51) before the bracket; opening brackets that are never closed are C47."
  },
  {
   "property": "C63",
   "status": "proved",
   "theorems": [
    "C63_indentation"
   ],
   "note": "For the parser of Parser.v and sources of the described language (C51) without texts of several lines; only the first of the two sources needs to be known as described."
  },
  {
   "property": "C64",
   "status": "partial",
   "theorems": [
    "C64_preview",
    "C64_catches_up",
    "C64_page",
    "C64_errors",
    "C64_stuck_refuted",
    "C64_errors_refuted"
   ],
   "note": "Output: proved for any converter if the worker answers. REFUTED without that: one unanswered request, while the text is edited, stops the preview for ever (_dirty stays set, POST_SEND_DELAY is not reached). Messages: proved if the user neither selects nor resets; REFUTED otherwise: resetting an unmodified example removes the messages for good. The browser and the editor are assumed as Demo.v says."
  },
  {
   "property": "C65",
   "status": "partial",
   "theorems": [
    "C65_own",
    "C65_kept",
    "C65_early_refuted",
    "C65_selected_refuted",
    "C65_reset_refuted",
    "C65_unchanged_refuted"
   ],
   "note": "Ownership and stars: proved. Keeping: proved from a state in which the example is loaded and its output there, if the user neither selects nor resets. REFUTED otherwise: edits before the first output, edits during a conversion followed by a selection, and edits after a reset of an unmodified example are not stored; an example that is fetched late is stored as if it had been modified."
  },
  {
   "property": "C66",
   "status": "partial",
   "theorems": [
    "C66_choice",
    "C66_text",
    "C66_choice_refuted"
   ],
   "note": "REFUTED: of two requests under way, the one answered last wins, not the one made last. Proved if the user waits for the example before choosing the next and no request fails. What the editor holds is always what was last typed, stored for the chosen example or fetched: proved."
  },
  {
   "property": "C67",
   "status": "proved",
   "theorems": [
    "C67_layout",
    "C67_marks"
   ],
   "note": "For any parser; the tree is the document after all transformations (document_of)."
  },
  {
   "property": "C68",
   "status": "proved",
   "theorems": [
    "C68_namespace"
   ],
   "note": "XML output, for any parser that agrees with the grammar; names written in the source and in the options are names of XML (as C38), and the option for code is not the empty name."
  },
  {
   "property": "C69",
   "status": "proved",
   "theorems": [
    "C69_size"
   ],
   "note": "For any parser that agrees with the grammar (C50). The constants are explicit and generous; the factors are the shape of the bound."
  },
  {
   "property": "C70",
   "status": "proved",
   "theorems": [
    "C70_places",
    "C70_shown"
   ],
   "note": "For any parser that agrees with the grammar (C50). C70_shown, for metadata elements, is stated without the language option, which does not touch texts (C23_lang)."
  },
  {
   "property": "C71",
   "status": "proved",
   "theorems": [
    "C71_elements"
   ],
   "note": "For any parser that agrees with the grammar (C50). Stated on the built tree; C25_includes_partial carries the nesting to the written document."
  },
  {
   "property": "C72",
   "status": "partial",
   "theorems": [
    "C72_items",
    "C72_order_partial",
    "C72_order_refuted",
    "C72_many_refuted"
   ],
   "note": "REFUTED for errors about what may follow what: they are listed twice in inline elements, again in each inline element around these (so that there can be more errors than characters), and apart from the errors inside the items they are about. Proved for all other errors of every source, and for all errors when lines are proper and nothing is dropped (as for C47)."
  },
  {
   "property": "C73",
   "status": "partial",
   "theorems": [
    "C73_order_partial",
    "C73_order_refuted"
   ],
   "note": "REFUTED if two outputs are the same file (C33). Proved if outputs are apart from each other and from the sources, which a search for one extension guarantees (C53_site)."
  },
  {
   "property": "C74",
   "status": "proved",
   "theorems": [
    "C74_ends",
    "C74_next",
    "C74_completes",
    "C74_site"
   ],
   "note": "In the model of Disk.v: any call may fail; the provisos (doable, SpecDisk.v) are about the files at the beginning. Without --fail-fast, which makes an error in a source a failure."
  },
  {
   "property": "C75",
   "status": "partial",
   "theorems": [
    "C75_marks_partial",
    "C75_marks_refuted"
   ],
   "note": "REFUTED: positions are byte offsets but are used as positions in the JavaScript string, so that after characters that are not ASCII errors are marked too far behind, even in another line. Proved for all errors with only ASCII characters up to their end, for all line ends. indexToPosition of the editor (ace) is modelled from its documentation (Editor.v)."
  },
  {
   "property": "C76",
   "status": "proved",
   "theorems": [
    "C76_bound",
    "C76_proper",
    "C76_linear_refuted"
   ],
   "note": "All syntax errors of a conversion, for every source, any parser agreeing with the grammar (and failed parses) and every configuration. The constant is not claimed to be least, but the square is needed: C76_linear_refuted gives, for every k, a source with more than k errors a byte."
  },
  {
   "property": "C77",
   "status": "partial",
   "theorems": [
    "C77_errors",
    "C77_accepts_partial",
    "C77_accepts_refuted"
   ],
   "note": "Syntax errors: proved in full (fail-fast is C13). Acceptance: REFUTED for sources with malformed escapes in attributes of a top-level head element, which page completion drops (C22); proved when names, classes, ids and attributes of the source and the language have no malformed escapes."
  },
  {
   "property": "C78",
   "status": "partial",
   "theorems": [
    "C78_reload_partial",
    "C78_url",
    "C78_params",
    "C78_reload_refuted",
    "C78_url_refuted"
   ],
   "note": "REFUTED: edits before the first output of an example are not stored (C65) and a reload loses them; after a failed request the URL names an example that is not shown. Proved, for the reload and the URL, if requests are answered and the user edits when the example and its output are there and selects or resets when nothing is under way. Other parameters: proved for every run."
  },
  {
   "property": "C79",
   "status": "partial",
   "theorems": [
    "C79_link_partial",
    "C79_only",
    "C79_opening_refuted"
   ],
   "note": "REFUTED for every link with which the demo is opened: loading the example removes the fragment before anything is shown. Proved for links followed while the page is open, unless the user selects or resets; and that nothing else is ever scrolled to."
  },
  {
   "property": "C80",
   "status": "partial",
   "theorems": [
    "C80_page_partial",
    "C80_head",
    "C80_stuck",
    "C80_frameset_refuted"
   ],
   "note": "REFUTED: after an output with a frameset in place of the body the frame shows it for ever (C80_stuck). The head (title, links, styles) is proved for every run, the body as long as no output that was shown is a frameset. How HTML is read is a parameter."
  }
 ]
}