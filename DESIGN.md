# Formal model of ludtwig: design

Source under study: `/repo` (ludtwig, pinned commit), read as text only and left
unchanged. Everything is done in Rocq/Coq 8.16.1, in `rocq/theories` (logical name
`Verif`). The properties are in `properties.jsonl`, their state in `MANIFEST.json`,
the log of wrong programs tried against the theorems in `seeded/LOG.jsonl`.

## 1. Trusted base

* Coq's kernel, including its `vm_compute` conversion (used for witnesses, concrete
  cases and conformance tests).
* `Print Assumptions` is run on every property theorem at the end of its file; every
  one of them prints *Closed under the global context*. No axiom of any library is
  used. (`vcheck` lists seven names of `Coq.ssr.ssrunder`; they are the fields of a
  module type of the standard library which is loaded, but used by no theorem.)
* The reading of the Rust source: each definition of the model cites the file and
  lines it models and says where it simplifies.
* The behaviour of the libraries which are not in `/repo`, taken from their contract:
  - **logos**: longest match, ties by priority, the callbacks called once per match;
    text without any match gives one error token per character;
  - **rowan**: `GreenNodeBuilder` (start node, token, finish node), red-tree navigation
    (parent, siblings, tokens, preorder with tokens), ranges as sums of text lengths;
  - **regex**: leftmost matches of the few fixed patterns in the rules;
  - **figment**: values are merged key by key, the later source first; the file is looked for
    in the current directory and those above; variables have the prefix in any case; **serde**:
    structs from maps, enumerations from names or numbers;
  - **std**: `slice::sort_by` returns a sorted permutation *if* the comparison is a
    total order; the fix theorems quantify over every function meeting this contract;
    `fs::write` truncates and then fills the file from the front; mpsc channels keep
    the order of each sender; a print to stderr is not torn apart.

## 2. Modelled code

| code in /repo | model |
|---|---|
| `syntax/untyped.rs` (kinds, logos table, callbacks), `lexer.rs` | `Kind`, `Regex`, `Lexer` |
| `parser.rs`, `parser/source.rs`, `parser/event.rs`, `parser/parse_error.rs` | `ParserApi` (commands), `Machine` (their execution: cursor, events, markers, errors), `Render` |
| `parser/sink.rs` and rowan's builder | `Machine` |
| `grammar.rs`, `grammar/twig.rs`, `grammar/twig/{expression,literal}.rs` | `GrammarExpr` |
| `grammar/twig/{tags,shopware}.rs` | `GrammarTags` |
| `grammar/html.rs`, `lib.rs` (`parse`) | `GrammarHtml`, `Machine` |
| rowan's red tree | `Red` |
| `syntax/typed.rs` | `Typed` (accessors that rules use), `TypedRest` (the others) |
| `check/rule.rs`, `check.rs` | `Rule`, `Check` |
| `check/rules.rs`, all files in `check/rules/` | `Rules` |
| `check/naming_convention.rs` | `Naming` |
| `process.rs` | `Process` |
| `output.rs`, the exit code in `main.rs` | `Output` |
| `config.rs` | `DefaultConfig`, `Check` (rule selection), `ConfigLoad` (loading, `--create-config`, messages) |
| `check.rs` (`produce_diagnostics`: the messages) | `Diagnostics` |
| `process.rs`, `output.rs`, `main.rs`, `error.rs` (what is printed on stderr) | `Shown` |
| `process.rs` (what a task prints on stdout) | `Said` |
| `untyped.rs` (`debug_tree`), `parser.rs` (`debug_parse`), rowan's and std's `Debug` | `Dump` |
| `untyped.rs` (`kind_to_raw`, `kind_from_raw`, numbers of the variants) | `RawKind` |
| `main.rs` (thread pool, one task per file, one channel) | `Session` |
| `main.rs` (`main`, `app`, `handle_input_paths`: the whole program) | `Main` |

Not modelled: command-line parsing (clap), the text of TOML files and of values in variables
(the theorems hold for any reading of them), the directory walk (ignore crate; a
run starts from the list of paths it yields), the size of the thread pool, the
layout of reports on the terminal (codespan; C40 covers the message text, C82 the labels), the benchmarks and
the fuzz target.

## 3. How it is modelled

* **Text** is a list of Unicode scalar values (`list N`); offsets (`TextSize`) are sums
  of UTF-8 lengths. Cutting a text off a character boundary is an explicit error.
* **Lexer**: table of patterns (literals and regular expressions with a matcher proved
  sound and complete) and the two suffix callbacks.
* **Parser**: grammar functions are programs (`prog`) in a small command language; each
  method of `Parser` is a command, recursion is a `Call` command, `parse_many` / `loop`
  an iteration command. A program is executed by
  - the *concrete machine*: token slice, cursor, event vector with placeholders and
    forward parents, open-marker list, error list; followed by `Sink` and rowan's
    builder. Every panic and debug assertion is an explicit outcome; a flag selects
    debug or release builds;
  - the *tree machine* (`TreeMachine`): a stack of open nodes with finished children.

  `Simulation` shows once, for all programs, that both agree. Facts about the grammar
  are proved on the tree machine with weakest-precondition calculi: `WpBase`/`Total*`
  (termination, panics, error ranges), `Shape*` (error-free trees, against the grammar
  in `Schema`), `Skel*` (all trees, against `Skeleton` and the operator table in
  `Precedence`), and with a calculus for two runs at once: `Layout*` (token lists that
  differ in white space); and `Acc*` (token lists derivable in a grammar are consumed without an error).
* **Rules** are functions on a zipper (`Red`); `run_rules` is the preorder walk with
  its flags; `WalkSpec` is the independent description of what the walk should do.
* **Fixing**: sorting, overlap filter, text replacement, ten rounds.
* **CLI**: file processing as an effect trace, the output handler as a fold over
  events, whole runs (`Session`) as a transition system in which tasks interleave at
  the granularity of single reads, sends and partial writes, and may be killed.

`Conform*.v` are tests, not proofs: they run the model on the inputs of the
repository's own unit tests and compare with the outputs expected there.

## 4. Where the theorems are

| properties | files |
|---|---|
| C01, C09, C10, C39 | `LexerProofs`, `PropLexer` |
| C02-C08, C40 | `Simulation`, `TreeSpec`, `Total*`, `PropParser` |
| C12, C13, C44 | `Shape*`, `Schema`, `PropShape` |
| C14, C37, C45 | `Skel*`, `Skeleton`, `PropSkel` |
| C11, C46 | `Precedence`, `SkelEdges`, `PropPrec` |
| C15-C17, C36 | `WalkSpec`, `PropRun`, `PropTree` |
| C18, C19 | `PropSelect` |
| C20-C27 | `PropProcess`; C23 also `Collide` (where the edits of each rule are), `Chain`, `Sides` (which tokens blocks share), `PropCollide`; C27 also `PropTwice` |
| C28, C29 | `PropOutput` |
| C30-C32, C43 | `PropNaming` |
| C33, C34 | `PropLines` |
| C35, C41 | `PropQuotes` |
| C38 | `PropFits` |
| C42 | `PropReport` |
| C47-C49 | `Session`, `PropSession` |
| C50 | `Layout` (spec), `LayoutSim`, `LayoutGrammar`, `LayoutRoot`, `LexLayout`, `PropLayout` |
| C51 | `PropIndent` |
| C67, C68 | `Endings` (spec), `LexEndings`, `PropEndings` |
| C69 | `Total` (`bstep`), `Builds`, `PropBuilds` |
| C70 | `PropTokens` |
| C71 | `Main`, `Loud` (no rule reports with severity Info), `PropMain` |
| C72 | `Snug` (where white space sits in a tree), `Nested` (indentation read off the tokens), `Relaid` (lines of a relaid text), `Rounds` (lines before and after edits), `Settled`, `Finish`, `PropFinish` |
| C73 | `PropKeep` |
| C74 | `Rename` (spec), `RenameSim`, `RenameGrammar`, `RenameRoot`, `PropRename` |
| C75, C76 | `PropAlone` (also the positive part of C22), `LexSwap` (lexing of respelled operators), `PropSpelled` (positive part of C76) |
| C77 | `Respell` (spec `respelled`, and that the grammar of C61 is closed under it), `PropRespell` |
| C78 | `PropIgnored` (on the skeleton of C45 and the per-rule edits of `Collide`) |
| C79 | `Recover` (an invariant of the parser's run: every error node so far has its message), `PropRecover` |
| C80 | `Cost` (bounds on the operations of every grammar function, composed by a small calculus of pairs: cost without progress, surplus per consumed token; nodes and messages weighed against operations), `PropCost` |
| C81 | `ErrOrder` (an invariant of the parser's run: no error so far is behind a token that is still to come), `PropErrOrder` |
| C82 | `Diagnostics` (model of the messages check.rs writes), `PropLabels` (ranges of all notes, rule by rule as in `PropFits`) |
| C83 | `Local` (two parses over tokens with a common beginning stay in the same state until the last common token is ahead: a relational invariant, one lemma per grammar function), `PropLocal` |
| C84 | `Dump` (model of the printed tree), `PropDump` (lines can be told apart, an indented list determines the forest, escapes are a prefix code) |
| C85 | `PropByLine` (on `one_local` of `LexLayout`: the next token of a line does not depend on what is behind the line) |
| C86 | `PropCompose` (C85 for the tokens, the grammar of `AccSpec` is closed under moving (`Respell`) and putting together, C61) |
| C87 | `ErrLine` (invariant over every function of the grammar: no message has a line feed), `RuleLine` (the same for every rule), `PropErrLine` (with C84 and the lexer facts of `Relaid`) |
| C88 | `RawKind` (kinds as numbers, the unchecked conversion), `PropRawKind` |
| C89 | `PropSettings` (two runs with different configurations; with C52) |
| C90 | `PropLooking` (simulation between runs with different options, over `Session` and `Main`) |
| C91 | `PropLasting` (from C71) |
| C92, C93 | `Shown` (the messages behind the events of `Process` and `Output`), `PropShown` |
| C94 | `Said`, `PropSaid` (from C24, C25) |
| C95 | `PropAgree` (from C24, C92) |
| C96 | `PropCodes` (from C52, C82) |
| C52 | `PropOff` |
| C53-C60 | `Found`, `FoundRun`, `FoundShape`, `PropFound`, `PropFound2`, `PropFound3`, `PropFound4`, `PropFound5` |
| C61 | `AccSpec` (spec: the grammar), `AccLogic`, `AccRules`, `AccExpr`, `AccTags`, `AccHtml`, `PropAccept` |
| C62 | `PropTyped` |
| C64-C66 | `ConfigLoad`, `PropConfig` |
| C63, second part of C08 | `LexLines` (which tokens line breaks and blank lines become), `Tidy`, `PropFound6` |

A property that is false of the code has a theorem `..._refuted` with a concrete
witness and, where one exists, the strongest restricted statement as `..._partial`.

## 5. What was found in the code

Crashes and wrong results (each is a theorem or a concrete case):

* `{{ (a,` and `<script>{%` panic in every build, `{{ (a,b) }}` in debug builds (C03);
  in release builds any token is accepted as the arrow after `(a, b)` (C44).
* `{{ a === ("c" && b) }}` gets two overlapping edits and `--fix` breaks it (C21, C22);
  `{{ a === (b === c) }}` makes `--fix` fail (C23).  So does an unclosed tag with a block in it, two line
  breaks and a block with an html comment, as both blocks claim the line breaks (C23).
* Ten rules break a valid template on their own, e.g. `{{ 1&&b }}` becomes `{{ 1andb }}`, `{{ a|json_encode|raw() }}`
  becomes `{{ a|json_encode|escape('js')() }}` and `{% block Set %}` becomes `{% block set %}` (C75).
* `{{ a&&b }}` silently becomes the variable `aandb` (C76).
* A second directive inside an ignored part ends it for whole-tree rules (C16); strings
  or nested protected elements end the protection of `pre` (C17).
* `starts without` is lexed as `starts with` + `out` (C39).
* `_` gets the empty name as suggestion (C31).
* Windows line endings: CRLF text is reported, two line breaks become one, and `--fix`
  only succeeds when no line break is left (C34).
* `<div id= foo>` becomes `<div id=" foo">` (C41).
* Exit code 0 if the walk only meets errors (C29). One file on which the parser panics ends the
  whole run with exit code 101 and without a summary (C71).
* A crash during the write loses the file (C26); a path given twice can be truncated
  by a race between its two tasks (C49).
* `{{ a == b ** * c }}` is grouped against the table, without an error (C11).
* The indentation rule takes the token after a skipped ERROR node for the first one of
  the line: `{% endblock %}` at the top of a file becomes `{%endblock %}` (C51).
* `--fix` with the line-ending rule turns `{{ a is not⏎defined }}` with CRLF, an `is` with the test
  `not defined`, into an `is not` with the test `defined` (C67, C68).
* Rules that miss a use: `{% apply nosuch %}` (C53), `{{ a ?? b is foo }}` (C54), attributes
  in `<div {% if a %}fooBar="x"{% endif %}>` (C57), `{% set FOO, BAR = constant('x'), 1 %}`
  (C57); `{{ a ?? b is foo(1) }}` is reported as an unknown function (C55).
* The typed view gives `c` as the left operand of `{{ a + b - c }}` and no right one, leaves out
  attributes inside twig tags, and offers white space control for assignments and overrides,
  which have no delimiters, but not for `sw_thumbnails` (C62).
* With an indentation of 0 spaces every line inside an element is reported, with an edit that
  changes nothing (C63), so `--fix` never finishes (C72).
* Of several carriage returns before a line break one is removed in each round: `--fix` gives up on
  ten of them (C72). An empty line with white space takes two rounds: first it gets the indentation
  one rule wants, then the other one removes it.
* The default configuration is announced although a file in a directory above is used; variables
  in lower case have an effect, but are not announced; a file without version goes unnoticed if
  the word occurs in a comment (C66). `twig = true` in the file and one variable for a list of
  names empty the other lists (C64).
* Removing the quotes of a hash key: `{{ {'é': 2} }}` becomes `{{ {é: 2} }}`, which no longer
  parses.

* `--fix` changes the contents of strings and preformatted text (C73): the indentation rule moves
  the second line of `{{ "a` LF `b" }}` and of `<p title="a` LF `b">`, the rule for empty lines
  removes white space in `<pre>`, and behind `<pre><textarea></textarea>` the `<pre>` is indented.
* Reported although Twig or HTML allow it (C61 leaves these out of its grammar): `{{ '\\' }}`
  (the escaped backslash is taken for an escaped quote), `{{ '#{a}' }}`, `{{ x-1 }}`, `{{ a-b }}`,
  `{{ {...a} }}`, `{{ (v => v) }}`, `{{ a?.b }}`, anything in `{% verbatim %}` that is no template,
  `{{ a-}}`, `{% if a-%}`, `{% else-%}` (the word takes the minus sign), `>` and `<` in attribute values, `<td colspan=2>`, `<a href=/x>`, `<a @click.prevent="b">`,
  `<p>a</P>`, `a <b` in text. `endcomponent` does not end a part of a script or attribute
  value, so a component tag with content is reported there.

Seen while reading, not stated as properties: two equal empty ranges compare `Less`
both ways under `TextRange::ordering`, so sorting more than twenty suggestions may
panic since Rust 1.81; `{% if %}` accepts several `else`; `at_twig_termination_tag`
lacks `endcomponent`; unknown characters are skipped without an error; `{{ () }}`, `{{ a + }}`, `{{ - }}` and `f(a=)` are accepted;
a line break inserted into `<{% block` turns text into an (erroneous) html element.
