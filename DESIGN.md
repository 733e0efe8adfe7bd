# Formal model of mintyml: design

The subject is the Rust workspace in `/repo` (crates `mintyml`, `minty-cli`, `minty-wasm`).
The model is written in Rocq (Coq 8.16.1, standard library only) under
`rocq/theories`; everything is in the logical namespace `Verif`.
`properties.jsonl` lists the properties, `MANIFEST.json` which theorems settle
each and how far, section 5 below what was found wrong with the code.

## 1. Trusted base

* Coq's kernel, plus whatever `Print Assumptions` prints under each property
  theorem: `Closed under the global context` for every one of them. No axioms
  are used. (A checker that lists axioms of loaded library files may show some of
  `Coq.ssr.ssrunder`; no theorem depends on them.)
* Our reading of the source. Every definition cites file and lines.
* The specifications (`Spec*.v`), which are what the theorems mean: read these with
  the statements in `Properties*.v`.
* The external behaviour listed here, which is *not* modelled or is assumed:
  * **The parser.** Theorems about conversion quantify over every function
    `parse : str -> ast + parse error`. Where a theorem needs to know that the tree is
    one of the given source (C25, C29, and later ones), its hypothesis is
    `reads alnum parse src` (`SpecErrors.v`): the tree is a reading of the source by
    the rules and tokens of `ast.rs`, `ast/*.rs`, which `Grammar.v` states as a
    relation. The relation allows more than the parser does (repetitions need not be
    greedy, a later alternative may be taken), so theorems hold for more trees than
    occur. `alnum` is the Unicode alphanumeric test, any function; C51, C52 and C54-C56 ask that
    it is the usual one in ASCII and not true of white space.
    `Parser.v` is a parser for the same grammar; C50 shows that its trees are readings,
    so the theorems hold of it for every source. What the crate `gramma 0.2.23` does
    with the grammar (its source is not in the repo) is assumed as the head of
    `Parser.v` says: greedy `simple()`, first match of `lazy()`, ordered alternatives,
    a lookahead of two tokens. Which parse error is reported is a parameter `failure`.
    `RepoTests.v` and `Readme.v` check the model with this parser against all tests of
    the repository and against README.md (27 KB, equal to the byte).
  * **`LocationRange::slice`** (gramma) is a parameter `slice`; theorems hold for
    every such function unless a hypothesis says otherwise; `source_slice` is the
    intended one. `LocationRange::combine` is taken as (min of starts, max of ends),
    `INVALID` as (MAX, MIN), `Location += / -=` as addition / truncated subtraction
    on naturals.
  * Rust `std`: `String`, `Vec`, `str::find`, `split_once`, `from_str_radix`,
    `char::is_whitespace`, Unix `Path` (`Path.v`). Each is re-implemented by a small
    function whose comment says which std function it stands for.
  * `rayon`'s `try_reduce`: any split of the jobs in neighbouring groups, any number
    of identities, jobs skipped only once one has failed (`Cli.v`, `reduces`,
    `parallel`). The events of different jobs may interleave in any order of jobs.
  * `std::sync::mpsc` delivers in order; writing to stderr succeeds.
  * `clap` 4.5: how it reads words (`--option=value`, `-xvalue`, clusters, `--`), groups,
    conflicts, requirements and overrides is modelled in `Args.v` from its documentation
    (its source is not in the repo), with the declarations of `args.rs`; its messages and
    help texts are not. Words are strings (in reality paths may be other byte strings).
    Properties of the `convert` command itself are about every record `args`, allowed or not.
  * `serde` and `serde_json` are modelled as far as errors need them (`Json.v`, C60); the
    other theorems about runs hold for any function `json`. `Display` of gramma's
    `ExpectedParse` is taken to be its name. A path that is not UTF-8 cannot be
    serialised; since paths are strings here, that failure is outside the model.
  * `anyhow` and `Debug` of strings (a parameter `debug`) are not modelled.
  * In `Cli.v` (C31-C37, C40, C42-C44) the file system is a record of functions (`io`)
    that does not change during a run. What a run does to files is modelled separately
    (`Disk.v`, C53): directories and files, calls of the operating system that take turns
    in any order, may do a part of their work, or fail. There: no links, no changes by
    other programs; a successful call checks less than the operating system does, so there
    are more executions than occur; errors when standard output is flushed at exit are not
    modelled. That the plan is made before the first conversion begins is as in `Cli.v`.
  * wasm-bindgen and js-sys (`Wasm.v`): strings are re-encoded, numbers passed as `i32`
    are converted as by `| 0`, missing options are `None`. Promises are not modelled.
  * The web demo (`Demo.v`): JavaScript runs one task at a time; messages to and from the
    worker arrive in order; functions that await the same promise continue in the order in
    which they began to wait; the editor (ace) holds what was last typed or set, and raises
    `input` at some time after the user changed the text. Times, and the durations of timers
    and requests, are arbitrary. The URL is modelled around this (`Url.v`, C78, C79): its
    parameters and fragment; what `searchParams.set` writes is read by `get`, `replaceState`
    raises no `hashchange`, and which ids the shown page has is a parameter. The frame
    (`Frame.v`, C80) has a head and a body or frameset; how HTML is read is a parameter, and
    the address of links in it is left out. Not modelled: themes, the history, other windows. Rows and columns of positions (`indexToPosition` of ace, not in the
    repository) are a parameter, except for C75, where they are modelled from ace's documentation.
  * The build scripts and the `Drop`/thread plumbing of the reporter are not modelled, nor are
    functions that nothing calls (`output_name`, `convert.rs:506-521`).
* Machine integers: positions and lengths are `N`/`nat` (no overflow). Values
  whose overflow matters (`u8`/`u32` `from_str_radix`) are bounds-checked in
  the model.
* Memory and stack depth are not modelled: recursion on nested input may overflow the
  stack of the real program.

## 2. Representation

* A `char` is its Unicode scalar value (`N`), a `str` is `list N`. Byte offsets
  are computed with the UTF-8 length of each character.
* `Result<T, InternalError>` with the mutable `Errors` argument is a state
  monad `errors -> errors * res T`. Recursive builder functions carry fuel;
  running out of fuel is a separate outcome (`Fuel`) that no theorem confuses
  with success, and C12 shows that it does not occur with the fuel used.
* The writer is a state monad over the text written so far, the indent level
  and the `follows_space` flag; a formatter error is an explicit outcome that
  keeps the partial output (needed for forgiving mode).
* Tag inference is a shallow embedding of the rule combinators (three-valued
  predicates, rule lists, method table), with the fix-point loop of
  `infer_tag_nodes`.
* The command line tool: `make_plan` (which source is converted where) is a
  function; running the plan is a relation `runs` because of the parallel schedule.

## 3. Files

| file | contents |
|---|---|
| `Base.v` | characters, strings, UTF-8 lengths, std string functions |
| `Escape.v` | `escape.rs`, cursor of `utils.rs` |
| `Config.v` | `config.rs` |
| `Ast.v`, `Grammar.v` | syntax tree types; tokens and rules as a relation (`ast.rs`, `ast/*.rs`) |
| `Doc.v` | document tree (`document/*.rs` types) and `elements.rs` methods |
| `Errors.v`, `Display.v` | `error.rs`: collector and builder monad; how errors are written |
| `Build.v` | `document/*.rs` building functions |
| `Transform.v` | `transform/*.rs` |
| `Infer.v` | `inference/**` |
| `OutText.v`, `Output.v` | `output/*.rs` |
| `Convert.v` | `lib.rs` |
| `Parser.v` | a parser for the grammar of `ast.rs`, `ast/*.rs` |
| `RepoTests.v`, `Readme.v` | the tests of the repository and its README, run on the model (tests, not proofs) |
| `Path.v` | Unix `std::path` as used by the tool |
| `Reporter.v`, `Cli.v` | `minty-cli`: `error_reporter.rs`, `convert.rs`, `utils.rs`, `main.rs` after argument parsing (for which see `Args.v`) |
| `SpecEscape.v`, `SpecMarkup.v`, `SpecHtml.v`, `SpecTree.v` | escape grammar; character references and comments; a reader (tokenizer) for HTML/XML; what a tree should show to the reader |
| `SpecInfer.v`, `SpecTransform.v` | README's inference tables and one-pass naming; page wrapping, metadata |
| `SpecAdded.v` | a text, and the same with metadata attributes in its tags (C24) |
| `SpecMessages.v` | why a command is refused, and how it is told (C36) |
| `SpecStray.v` | the closing brackets (C62) |
| `SpecReindent.v` | sources that differ in indentation only (C63) |
| `SpecSource.v`, `SpecBuild.v`, `SpecErrors.v`, `SpecWhole.v` | positions; texts and selectors of a syntax tree; what an error points at; the document behind a conversion |
| `SpecOrdinary.v`, `SpecAttrs.v`, `SpecText.v` | plain sources and content that fits its elements; which tags and attributes a source asks for; the text a source says and a reader reads |
| `SpecShape.v` | how a source is read: which element contains what (README 'Basic structure') |
| `SpecFaults.v` | the faults of a source; how items of a line may follow each other (C47); which errors are about single items (C72) |
| `SpecLayout.v` | how output is laid out in lines (C67) |
| `SpecNamespace.v` | where the prefix `mty:` is declared and used (C68) |
| `SpecSize.v` | the size of the options that are copied to the output (C69) |
| `SpecPlaces.v` | where texts, comments and interpolations stand in the source, by kind (C70); how elements are delimited there and nested (C71, C25) |
| `Demo.v`, `SpecDemo.v` | the web demo (`web-demo/src/index.ts`, `worker.ts`) as events; what a quiet state is (C64-C66) |
| `Editor.v`, `SpecEditor.v` | rows and columns in the demo's editor, as ace finds them; and as they are (C75) |
| `Url.v`, `SpecUrl.v` | the demo with its URL: the example it names, the place it points to; a user who waits, a page opened again (C78, C79) |
| `Frame.v` | the frame in which the demo shows an output as a page (C80); how HTML is read is a parameter |
| `Wasm.v`, `SpecWasm.v` | the JavaScript package (`minty-wasm/src/lib.rs`, `src-ts/index.ts`); what its options ask for |
| `SpecWrite.v`, `SpecExpress.v` | the core of the language over strings: how sources are written and the HTML they stand for; HTML trees and their serialisation |
| `SpecPlain.v` | plain text: its lines, its paragraphs, their HTML |
| `Disk.v`, `SpecDisk.v` | `io_helper.rs`: what conversions do to files, step by step, taking turns; when outputs are apart, and what they hold (C53); steps that get further, and when a run can be carried out (C73, C74) |
| `Args.v`, `SpecArgs.v` | `args.rs`, `key_value.rs`, `main.rs` `parse_args`: the words of the command line; how uses of options are spelled, when they go together, what they say |
| `Json.v`, `SpecJson.v` | errors as JSON (`error_reporter.rs`, serde_json); a JSON reader, and what is to be read |
| `Program.v` | `main.rs`: from the words of the command line to stderr, what is written, and the exit code |
| `SpecCli.v` | directory trees, output names, what a successful conversion is |
| `P_*.v` | proofs |
| `Properties*.v` | property theorems with `Print Assumptions`, examples, refutations |

## 4. How each property is proved

(Status is kept in `MANIFEST.json`.)

* **C01/C02/C03** `unescape_parts` on a string cursor against an inductive relation
  given by the escape grammar; strong induction on the rest of the string.
* **C04/C05** escape writers against an entity decoder written from the HTML/XML
  rules; induction on the text.
* **C06** substring predicates and a "remove padding" relation.
* **C07-C11, C27** the writer's output is refined to a list of tokens; a reader
  (`SpecHtml.v`) reads it back; induction on the tree.
* **C12/C13/C14** `Convert.v` with oracle parser. C13 by a relational invariant of
  the builder monad closed under bind; C14 by following every write that can fail.
* **C15, C21-C25** structural induction on the tree. C25 also uses the grammar
  relation: every position in the document is a character boundary of the source.
* **C16-C20** the fix-point engine is proved equal to a one-pass table-driven
  resolution; README's tables are checked against that.
* **C26** `trim_multiline` against a line-based specification.
* **C28, C41** an invariant of the builder relating marks (texts, selectors) left in
  the syntax tree to those of the document.
* **C29, C30** grammar relation and `Display.v`.
* **C38, C39, C45** statements that only mention source and output: an induction on
  the builder for predicates on selectors and texts (`P_Source.v`), one through all
  transforms (`P_Trees.v`), and the reader of C07. `C07_source_reads_back`,
  `C10_source_spaces`, `C11_source_indent` are C07, C08, C10, C11 from the source.
* **C46** the builder refines a relation `Says` between the syntax tree and nested
  shapes, which is shown to have at most one answer for each source; special tags and
  inference then only name elements; completion, metadata and language add what
  `SpecShape.v` says.
* **C47** two inductions over the builder: on proper lines the errors added are the
  faults of what is read; a run without errors reads only proper lines.
* **C48-C49** by C12 and C29, and by cases on the options.
* **C50** each rule of `Parser.v` finds only what the rule of `Grammar.v` allows, and moves
  forward where it is repeated, so that the fuel is enough.
* **C51** forward: by induction on how the source is written, the parser finds the
  tokens (`P_Forward.v`, `P_WriteSel.v`), the builder the nodes (`P_WriteText.v`, `P_WriteItems.v`), and
  inference and writer the pieces of the page (`P_Write.v`).
* **C53** invariants of all executions: what is kept, and what each conversion has done so
  far; for a search, different sources lead to different places.
* **C54** by cutting the text into lines, it is a source in the sense of C51, whose page is
  computed.
* **C55-C56** sources as in C51 are put together line by line; lines of plain text are
  trimmed; with carriage returns added the source is one of the same document, by induction on
  how it is written.
* **C52** a printer into the core of C51, with every character of text and attributes
  escaped.
* **C31-C37, C40, C42-C44** paths are compared by components; directory trees are
  finite trees; the plan is analysed case by case; the run by induction on the
  reduction.

* **C57-C59** the reader of words against the relation `Spelled`, both ways, by induction
  on the words; `valid` against `Coherent`; for each allowed command a command line is
  built.

* **C60** a printer of JSON values and the reader are inverse, by induction on values;
  entries are such values.
* **C61** composition of C57, C31-C44, C53 and C51/C54.
* **C62** the lemma of C51 that reads a described source whatever follows it; then no rule of the
  grammar begins with a closing bracket, and the end of the input is required.
* **C63** by induction on the derivation that a source is of the described language: with the
  indentation of each line replaced it is the source of the same document; then C51.
* **C67** by induction on the tree, with the flag `following_space` as the state of `typeset`.
* **C68**: the builder puts only texts, paragraphs, line and block elements and code blocks
  at the top (`validate_line` refuses anything beside them); those are named by inference or
  by the special tags, so each gets the declaration; then by induction on the tree.
* **C69** weights: a number per node, selector, item and text and a number per character. The
  grammar bounds the weight of the syntax tree by the length of the source, the builder the weight
  of the document by that of the syntax tree; each transform changes the two numbers by a linear
  map, and the marks of C67 are bounded by the weight of the document they come from.
* **C70** the texts of the document with their ranges are some of those of the syntax tree (the
  induction of C28, for any function of range and text); the grammar says what stands at each, and
  that they come one after the other; the transforms only move them (page completion).
* **C71** induction on the builder's fuel, with a relation between what the lines handled so far
  left behind and where the last of them ends: all nodes lie before that, except that the right
  spine of the last line grows with it. **C25_includes_partial** follows by carrying the nesting
  of C71 through the transforms.
* **C72** two inductions over the builder for positions: every error of a single item points into
  the item, and items are built in the order of the source; with C47 these are some of its faults.
  Errors of items that stand one after the other and are not empty are distinct.
* **C73** the invariant of C53 and one more: which directories a conversion has made so far, and
  that new directories are those of conversions that write. What is read is what was there at first,
  so both runs make the same texts. **C74** a measure (bytes to read, directories and bytes to
  write) that each step decreases unless it does nothing; the disk stays a tree, so the directory of
  the next directory, or of the output, is there. C74_site finds the provisos for a search: outputs
  lie below the root, so what is on the way is a beginning of an output's place.
* **C75** lines found by the editor are those of the text, by induction over lines; ASCII characters
  are one byte and one unit each, so offsets in bytes are positions up to the first other character.
* **C76** induction over the builder: from `u` nodes of a line it makes at most `2u` nodes and
  `2u²` errors about what follows what; each node of the tree has a byte of its own in the grammar.
  C76_linear_refuted: a family of sources whose errors are counted by induction over the nesting.
* **C77** the builder does not see the options; what it reports is what `convert` reports.
* **C78** invariant: the example of the URL is there and what was last sent is stored or is the
  example's own text, or it is being fetched and nothing is stored for it. **C79** after a link: the
  place has been shown, or it is looked for and the page shown does not have it. **C80** invariant:
  the head is the demo's own elements and those of one output; the body is a body.
* **C64** invariant: the last text sent is the editor's, or an `input` or a timer is still to
  come; the last response under way is that of the last text sent, or it is shown. A measure of
  what is under way decreases with each step. **C65**, **C66** invariants of the same kind.

## 5. Findings

Formalised as `_refuted` theorems (concrete inputs, checked by computation):

| | what the code does | where |
|---|---|---|
| C03 | `\x+5`, `\u{+41}` are accepted; README's backslash-space is rejected | `escape.rs` |
| C04/C05 | NUL and C1 controls are written as references that HTML readers remap; control characters XML forbids are written | `output` |
| C11 | white space in a raw element depends on the indentation option | `output/mod.rs` |
| C15 | the code block container is named by the `emphasis` option; its own option is ignored | `transform/mod.rs` |
| C18 | `th` is inferred in `thead` (README: must be stated); `a` and custom elements get the wrong children; image maps; `details` with a leading comment gets no `summary` | `inference/` |
| C19 | an inline element written with a block, and a block in `picture`, stay unnamed and lose their selector | `inference/`, `output` |
| C20 | metadata with elements: `is_raw` is inverted, all ordinary text is written unescaped | `transform/metadata.rs:249` |
| C21 | several top-level `html` elements are left as they are | `transform/` |
| C22 | `head>title>` and attributes of a top-level `head` are lost | `transform/` |
| C25 | `div> p> { x }` and `p> x <(a { y } <!c!>)>`: the recorded range of a parent does not include its child | `document/` |
| C28 | `> { x } foo` loses `foo` without an error | `document/line.rs` |
| C30 | a list of two expected items reads `textor space` | `error.rs` |
| C32 | a recursive search fails at a pipe or a symbolic link to a file | `convert.rs:95-108` |
| C33 | `a.mty` and `a.minty` are written to the same file; so are `x/a.mty`, `y/a.mty` with `-o out` | `convert.rs:179-212` |
| C36 | `convert c/..` searches `c`; `convert .` fails; with `--dir` named files are looked up without the directory; absolute files with `--dir` and `-o` are written outside the output directory; misuse of `--stdout` is reported as an internal error; a missing `z.mty` is reported as `'/z.mty' does not exist` | `convert.rs` |
| C37 | `--metadata-elements=false` turns metadata on | `convert.rs:474-485` |
| C38 | names of attributes are decoded and then written unescaped: `p[\>\<script\>f()\<\x2fscript\>]> a` writes a `script` element; names of elements are written with their escapes (`a\>b> x`) | `output/`, `document/selectors.rs` |
| C39 | an attribute is written twice: `p[a=1 a=2]`, `p#y[id=z]`, a `lang` attribute with the language option | `document/selectors.rs`, `transform/` |
| C40 | a trailing slash is recognised for the root directory only | `utils.rs` |
| C41 | a selector at the end of a line is dropped without an error | `document/` |
| C47 | after `> { ... }` nothing is checked: an unclosed comment or text there is accepted | `document/line.rs` |
| C43 | an error without location prints nothing, the exit code is failure | `error_reporter.rs`, `lib.rs` |
| C72 | `<(a { y } b)>`: the error about `b` is listed twice; `a { \q } b`: the error about `b` comes before that about `\q` | `document/line.rs`, `document/elements.rs` |
| C53 | two conversions with the same output may both succeed and leave a mixture of both texts; a source that is also an output may be read when it has just been emptied; if an output cannot be written, its old contents are lost | `io_helper.rs:23-33, 79-84` |
| C72, C76 (`C72_many_refuted`, `C76_linear_refuted`) | `<(x{}<(x{}<(y{}y{}y{})>)>)>`: each misplaced block is reported again, twice, in every inline element around it; the number of errors grows with the square of the source | `elements.rs:281-300`, `line.rs:311-357` |
| C73 | `convert a.mty a.minty` leaves the text of the one or the other, depending on which was written last | `convert.rs:179-212` |
| C75 | three letters with accents, `\q`, line end, `x`: the demo marks the error in the second line | `index.ts:257-258`, `minty-wasm/src/lib.rs:45-80` |
| C77 | `head[a=\q] { title> t }` is refused, but converted when the page is completed | `transform/complete_page.rs`, `output/mod.rs` |
| C55 | `{{ x } }`, an empty line, `{ { y }}`: two blocks become one interpolation | `ast/text.rs` |
| C56 | with Windows line ends, code blocks, texts of several lines and verbatim texts contain `&#13;` | `output/` |
| C59 | `--error-mode=json` alone: failure without any message; `convert --error-mode=json` with an error in the command line writes text, not JSON (`FallbackArgs` does not know the other arguments) | `main.rs:118-144` |
| C49 | JavaScript: positions of errors are byte offsets, wrong in a source with `é`; the message of all errors but parse errors is `Unexpected 'undefined'` | `minty-wasm/src/lib.rs`, `src-ts/index.ts` |
| C64 | demo: a conversion that throws (no response) while the text is edited stops the preview for ever; resetting an unmodified example removes the error messages | `web-demo/src/index.ts:183-203, 277-318`, `worker.ts` |
| C65 | demo: edits before the first output of an example, after a reset of an unmodified one, or during a conversion before another example is selected are not stored; a slowly fetched example is stored as modified | `index.ts:182-203, 277-333` |
| C66 | demo: of two examples being fetched the one that arrives last is shown, not the one chosen last | `index.ts:182-193` |
| C78 | demo: after edits before the first output (C65) a reload brings back the old text; after a failed request the URL names an example that is not shown | `index.ts:182-193` |
| C79 | demo: opened with a link to a place in the page (`#id`), the demo never shows that place: `init` loads the example, which removes the fragment from the URL before the first output | `index.ts:183, 205-227` |
| C80 | demo: after an output with a frameset (`html { frameset { } }`), the frame has no `body` that could be replaced: the page view stays as it is for every later output | `index.ts:171` |

Seen while reading, not formalised: messages say "character" but give byte offsets;
the content range of a paragraph of several lines covers its first line; custom names
of special tags get section context in inference; `direction_precedence` and one
phrasing rule are dead code; tag names are matched case-sensitively in inference;
`script` is not among the metadata tags; a configured empty special tag name removes
the first selector; `iframe`, `xmp` and the like are escaped though HTML reads them raw;
inline elements are validated twice, so errors are listed twice; interpolations are raw
even in XML; the help of `convert` says `--special_tag`, which is refused (C57), the option
is `--special-tag`; names of special tags cannot contain a comma; named directories are never
searched deeply, since `--recurse` excludes files (C58), and the case without a source does
not occur; `--metadata` and `--metadata-elements` replace each other, so the case of both in
`as_config` does not occur; `--forgiving=false --fail-fast` is refused.

## 6. Testing the theorems

Wrong programs (edits of the model's definitions in a scratch copy) are logged in
`seeded/LOG.jsonl`, one line per attempt, with the theorems that failed and those that
were tightened because they did not. `seeded/AUTO.jsonl` lists edits that were made by a program (a literal
changed, a branch swapped, a test negated, ...) to every definition in turn, with the first lemma
that failed; those that no theorem noticed are in `LOG.jsonl` with the reason or the theorem
that was added.
