# Formal model of booink/chanoma in Rocq (Coq 8.16.1)

## Approach

* `char` is `N`, `str` is `list char`; `valid_str` says every element is a Unicode scalar value.
  Rust's byte-level facts (`len`, byte offsets, `Ord for String`, `str::replace`) are modelled at
  code-point level or through an explicit UTF-8 encoder; C53 proves that the two levels agree.
* `Result`/panic: `outcome A := Ok a | Err e | Panic`. Indexing and `unwrap` are checked, so a panic
  is a visible value.
* Hash iteration: every `HashMap`/`HashSet` traversal takes its order from a schedule
  `sched := list nat -> list nat` (call-site path -> list of picks). `shuffle picks l` is always a
  permutation of `l`, and every permutation of `l` is `shuffle picks l` for some picks (both proved in
  `BaseFacts.v`), so `forall o : sched` ranges over all iteration orders of all maps at every call site.
* The outside world (file system, environment, YAML parser) is a record `world` of functions that the
  theorems quantify over; nothing is assumed about it.
* Specifications are separate small files (`Spec`, `CharSpec`, `NeoSpec`, `FileSpec`, `PathSpec`,
  `ConfigSpec`, `ParseSpec`, `BinSpec`, `CsvSpec`, `ProcessSpec`, `PySpec`, `RustSpec`, `RaceSpec`, `RepeatSpec`, `SearchSpec`, `YamlSpec`, `EditSpec`, `DebugSpec`, `WidthSpec`, `RenameSpec`, `RefusalSpec`, `BackSpec`, `LengthSpec`, `SuperfluousSpec`, `PanicSpec`, `SameSpec`, `TableLawSpec`, `ShortSpec`, `CutSpec`, `OrderSpec`, `FrameSpec`, `LosslessSpec`, `ThreeSpec`, `ShellSpec`, `RowsSpec`, `PlacesSpec`, `EntriesSpec`), written as relations or as direct descriptions
  that do not call the model's helper functions.
* Where the behaviour one would expect of the code does not hold, the property says so and there is
  a `..._refuted` theorem with a witness beside the theorem saying what does hold.

## Files (rocq/theories)

* Model: `Base`, `Utf8`, `StrOps`, `Corr`, `CharsetData` (generated from `/repo/src/characters_set` by
  `tools/mkcharset.py`), `Table`, `Charset`, `Position`, `Converter`, `Eliminator`, `Reducer`, `Dotted`,
  `Ligature`, `TrimMod`, `Neologdn`, `ModifierKind`, `KindEq`, `ChanomaModel`, `PathModel`, `Yaml`, `File`,
  `Configuration`, `Cli`, `Python`, `PyProgram`, `RustProgram`, `ErrorMsg`, `Csv`, `Process`, `OutputTool`, `Ending`, `WriteOut`, `Log`, `DebugText`, `Refusal`, `Race`, `YamlText`, `PanicPlace`. Every definition cites its lines in /repo.
* `ExampleData`: the files of `/repo/examples/file` (generated by `tools/mkexamples.py`; the CSV file as bytes, the
  YAML file as the document it describes).
* `WidthSpec`: the `<wide>` and `<narrow>` mappings of the Unicode character database (generated by `tools/mkwidth.py` from
  Python's `unicodedata`, version 14.0.0; a specification, independent of /repo).
* `YamlData`: the texts of the repository's YAML files and README samples (generated by `tools/mkyaml.py`).
* `RepoTests`: the repository's own assertions replayed on the model by computation (generated by
  `tools/mktests.py`). It is a check of the model against the code's tests, not a property.
* Specification vocabulary: the `*Spec` files above.
* Lemmas: `*Facts`, `*Props`, `NeoMore`, `YamlScalars`, `YamlSound`, `YamlComplete`.
* Property theorems: `Props*` — theorem, a concrete non-trivial case, `Print Assumptions`.

## Plan per property

| id | modelled | proof | file |
|---|---|---|---|
| C01-C06 | `CharacterConverter::{modify, modify_with_positions, from_tables}` with the real index map and in-place writes | invariant over the processed map entries, any order; induction | PropsConverter |
| C07-C09, C54, C57 | `characters_set/*` as generated data, `ALL` as the real chain of `+` | finite sweep over the table lifted to all characters | PropsCharset |
| C10 | `CharacterEliminator` | induction | PropsSimple |
| C11-C14 | both reducer loops | loop invariants; run decomposition | PropsSimple |
| C15-C16 | dotted-space loop | equality with a run-based specification | PropsSimple |
| C17-C19 | `Trim` | list decomposition, UTF-8 lengths | PropsSimple |
| C20-C22 | `str::replace` and the fold over the map | inductive spec; tokenisation argument; witness | PropsLig |
| C23-C29 | `Neologdn` | composition of the above; invariants through stages | PropsNeo |
| C60-C65 | further facts on neologdn and on pipelines (locality, lengths, commutation, order) | composition; finite sweeps lifted | PropsNeoMore |
| C30-C32 | `Chanoma` builder and both normalise variants, log level | induction over call history | PropsPipeline |
| C33-C38 | `corr.rs`, `table.rs` | sortedness + permutation uniqueness; refinement to a set | PropsCorr |
| C39-C43 | `file.rs`, `from_yaml_value` of every modifier | case analysis, induction on rows and entries | PropsFile |
| C44-C49, C56 | `configuration.rs`, search path, `valid_file_path`, `Path::{extension,push,set_extension}` | case analysis, path lemmas | PropsConfig |
| C50 | `FromStr for ModifierKind` | case analysis, print/parse | PropsParse |
| C51-C52 | `main.rs`, Python binding constructors | case analysis | PropsBin |
| C53, C55 | UTF-8 encoder; `Position` ordering | prefix-freeness / self-synchronisation; induction | PropsUtf8 |
| C58-C59 | builder functions that read files, `bin/output.rs` | composition of C33-C42 | PropsTableFile |
| C66, C68 | `items` against `character_converter`; the Python character sets | set reasoning on items | PropsMore |
| C67 | `error.rs` | case analysis, injectivity of prefixes | PropsErrors |
| C69-C71 | CSV reader and writer on bytes | automaton invariants; print/parse; UTF-8 decoding iff | PropsCsv |
| C73-C74 | clap's parsing of `Opts`, standard input and output as bytes | loop invariant against an inductive grammar; C51 lifted through UTF-8 | PropsProcess |
| C75 | exact commutation table of the simple modifiers | commutation lemmas by induction; two- to four-character witnesses for the converses | CommProps, PropsComm |
| C76 | characters a modifier can introduce or leaves alone | induction over each specification relation; witness texts and orders | PropsOrigin |
| C77 | derived equality (KindEq) | content of duplicate-free association lists; permuted iteration orders | PropsEq |
| C78 | programs over the Python objects (PyProgram) | two-way simulation with a transition relation on item sets and text relations | PyProps, PropsPy |
| C79 | clap's parsing of the output tool's `Opts`, its output (OutputTool) | loop invariant against an inductive grammar; C71 | PropsOutput |
| C80 | debug log lines (Log) | the logging run is the plain run with a list of lines; C31 | PropsLog |
| C81 | each access sees its own world (Race) | state and access counter threaded through; per-file lemma from C44, induction over candidates and files | PropsRace |
| C82 | image of each modifier | fixed points; for neologdn a tilde between adjacent prolonged marks | PropsImage |
| C83 | conversions and eliminations | normal form built from the right | PropsImage |
| C84 | original from positions | explicit inverse per stage | PropsUndo |
| C85 | the files in `examples/file`, as data (ExampleData) | C44 on the data; finite sweep over the table lifted to all characters | PropsExamples |
| C86 | interchangeable characters | invariance by induction, one- and three-character texts for the converses | PropsInterchange |
| C87 | printing of YAML text (YamlText) | print/parse with a reader for a part of YAML; finite sweep over the preset; exact text by a separate grammar of numbers and quotation | YamlTextFacts, PropsYamlText, PropsYamlPrint |
| C88 | the repository's YAML files as text (YamlData), files of `a: b` and `a: [b, c]` lines | computation; line-by-line induction over the reader | YamlTextFacts, PropsYamlText |
| C89 | what ends the parsing of the arguments, exit status (Ending) | loop invariants against grammars of argument lists | PropsEnding |
| C90 | pipelines that can be described (configuration model, equality of C77) | a document for every pipeline of the right shape; shape of every loaded file; worlds built for twelve files | PropsDescribe |
| C91 | YAML texts in general (grammar of blocks, lists and mappings on one line, scalars, comments, line ends) | mutual induction over the grammar with a bound on the reader's fuel, and over the reader's fuel for the converse: the reader of `YamlText` reads exactly the grammar of `YamlSpec`; a text for every value by induction; C44 and C90 for what it does | YamlScalars, YamlSound, YamlComplete, PropsYamlGrammar |
| C92 | programs over the library's tables and Chanomas (RustProgram) | two-way simulation with a determined transition relation on item lists and stage lists; frame lemma for other objects | RustProps, PropsRust |
| C93 | repeating a normalisation | each pass establishes one more invariant (no eliminated character; spaces only between letters or digits; nothing left to do); preset and neologdn commute; chains, cycles and doubling as counterexamples | RepeatProps, PropsRepeat |
| C94 | output that cannot be written (WriteOut) | the pieces concatenate to the export and each buffer passed on is full up to one byte; induction over the buffers with an arbitrary device; a cut file reads as its complete records and at most one more; a device failing at the right use after the right number of bytes for every cut | PropsWrite, PropsWriteMore |
| C95 | looking for a text in a normalised text | each modifier maps a beginning to a beginning and an end to an end (and, for three of them, every cut of the result comes from a cut of the text); these compose; neologdn: its stages before composition as one such function, composition joined at places without sound marks | SearchSpec, SearchProps, PropsSearch |
| C96 | the text of the debug log (DebugText) | every printed form ends where its own end is (escapes, quoted texts, numbers before a non-digit, lists, structs), so equal lines have equal parts; a grammar of {:?} (DebugSpec), proved to give exactly the lines of the model; the printable characters as an arbitrary set | DebugProps, PropsDebug |
| C97 | all modifiers | modifiers as machines reading a character at a time: what is held back is bounded, and two states agree after a bounded output; neologdn as one machine; composition adds the bounds; for separate ligature keys a place near either end of the stretch where no occurrence of a key is cut in either text | EditFacts, EditLig, PropsEdit |
| C98 | preset, neologdn | the preset's pairs compared with the table of the character database (226 pairs, by computation); decomposition by induction on the text; the converse by counting the three exceptional characters; narrowing is a renaming (C99) | PropsWidth, PropsRename |
| C99 | all modifiers | each modifier commutes with a renaming that respects its roles (induction on the text); necessity from texts of one to three characters | PropsRename |
| C100 | main.rs:23-26, error.rs | derived `Debug` of the errors, by the grammar of C96; every variant has its own name and texts end at their own quotation mark; errors of `load_rc` from C67 | Refusal, RefusalSpec, PropsRefusal |
| C101 | all modifiers | run reduction and dotted spaces as machines whose state after a text is read off the reversed text; trimming from C17's symmetric spec; ligatures: cut at the last key (C97); neologdn: first place where the two readings differ | BackSpec, BackFacts, PropsBackwards |
| C102 | ligature_translator.rs, chanoma.rs | greedy replacement is a largest packing: leaving out as many characters as the key has loses one place at most; bound by induction on the entries in traversal order; witness: each character becomes two of the next | LengthSpec, LengthFacts, PropsLength |
| C103 | chanoma.rs, all modifiers but ligatures, neologdn.rs | each modifier as a function on texts; if: the fixed points of C16, C25, filters and maps; only if: one- to four-character texts; neologdn: C82 supplies texts with a given result, C86 the conversions before it | SuperfluousSpec, PropsSuperfluous, PropsSuperfluousNeo |
| C104 | file.rs, configuration.rs, modifier_kind.rs, from_yaml of each modifier, main.rs | the same functions once more with the place of each `unwrap` (`PanicPlace`), proved to be the model's when places are forgotten; by cases and induction along the document, first defect wins | PanicSpec, PropsPanic, PropsPanicLoad |
| C105 | modify of each modifier, neologdn.rs | each change leaves the result as it is (machine reading one character at a time); every text is connected to one determined by its result (induction on a weight of the text); so connected and same result coincide | SameSpec, SameFacts, SameNeo, PropsSame |
| C106 | the modify functions, chanoma.rs normalize | prefix-monotone functions compose; modifiers as machines with bounded memory (from C97, C105) compose adding the bounds; exact fixed part of neologdn from its machine; witness family for the trim | PropsStream |
| C107 | corr.rs Add, Sub | number of copies of each item in the value of an expression, by induction; sorted lists with equal copies are equal; only if: tables with one item in different numbers of copies, and an unsorted table | TableLawSpec, PropsTableLaws |
| C108 | chanoma.rs normalize, every modify | each modifier as a machine with finitely many states that may guess (trim: the last non-space; neologdn: the sound mark; ligatures: where keys begin); machines compose; a text on which two machines differ can be cut at a repeated pair of states, since agreement on three shorter texts forces the fourth; C99 folds all other characters to two | ShortSpec, Machines, ShortFacts, PropsShort |
| C109 | chanoma.rs normalize, every modify | each modifier as a machine: after reading a it has written f(a) but for what it holds back; resuming on b gives the same as starting on b exactly if nothing is open (a run, a held space with a letter to come, held kana with its mark to come); ligatures: an occurrence across the cut shares characters with no other | CutSpec, CutFacts, PropsCut |
| C110 | chanoma.rs normalize, ligature_translator.rs modify, HashMap order | with the orders fixed every pipeline is a machine (one replacement after another, also with an empty key), so two choices of orders that differ differ on a short text (C108); results of a text enumerated by permutations; keys of one character: an order that ends with the two entries concerned | OrderSpec, PropsOrderShows, PropsOrderMore |
| C111 | configuration.rs, file.rs, main.rs | two worlds that agree on the places of C45/C46 (file or not; for a file, what the format given by its name makes of it: CSV without the first record, YAML `items` and `modifiers`) give equal loads, by rewriting through each reading function; converse: an unreadable file put at any of these places makes the load fail | FrameSpec, PropsFrame |
| C112 | all modifiers, chanoma.rs normalize | a table without loss maps its keys into its keys (otherwise a replacement that is no key meets its own key), injective on a finite set hence onto, so the stages before it can be taken back and the argument goes stage by stage; inverse table; one-character ligatures by the first occurrence of the character | LosslessSpec, PropsLossless, PropsLosslessMore |
| C113 | char_converter.rs, char_eliminator.rs, consecutive_char_reducer.rs, trim.rs, dotted_space_eliminator.rs, chanoma.rs normalize | a run reduction meets the image of the last character not yet removed; a character it drops has the image of the one kept, so later stages see the same; dropping across several removed characters happens exactly if it happens across each, because the stages are ordered; texts of characters no stage speaks of are cut there; trimming and swapping the space in turns peels an alternating text one character at a time | ThreeSpec, PropsThree |
| C114 | main.rs (several runs) | the bytes printed are the encoded text and a line feed, so the next run reads its first line (C74, C89); neither the preset nor neologdn nor, by hypothesis, the configuration brings in a line feed (C76, C60); runs with only the built-in modifiers are sorted by the exchange of preset and neologdn and collapsed (C93) | ShellPipe (model), ShellSpec, PropsShell |
| C115 | configuration.rs from_config_file, file.rs, corr.rs, char_converter.rs | rows as partial maps of which the last wins; the items of C39/C44 of a list of rows give the same map; exchange, omission, permutation and concatenation are statements about these maps; one row per character something turns into suffices, and a row writes only one character | RowsSpec, PropsRows, PropsRowsMore |
| C116 | char_converter.rs, char_eliminator.rs, consecutive_char_reducer.rs, dotted_space_eliminator.rs, trim.rs, neologdn.rs, ligature_translator.rs | each modifier leaves a subsequence of the text or of its image; subsequences compose; for neologdn the stages before the ligatures drop only spaces, tildes and prolonged sound marks behind another, so nothing but the former two can stand between a kana and the mark it is composed with | PlacesSpec, PropsPlaces |
| C117 | file.rs 61-80, configuration.rs 89-95 | an entry of `items` gives the items its row gives, so the whole file is read as the CSV file with these rows (C115 carries over, panics included); pairwise different keys from the fewest rows (C115) | EntriesSpec, PropsEntries |
| C72 | every modifier's positions | bounds through each loop | PropsBounds |

## Trusted base

* Coq 8.16.1's kernel, including its virtual machine (`vm_compute` is used for finite sweeps).
* Assumptions: `Print Assumptions` follows every property theorem and prints
  "Closed under the global context" for each one: no axiom is used, ours or the library's.
  `vcheck` also lists seven `Coq.ssr.ssrunder.Under_rel.*` entries. They are declared in a module type
  of the standard library that is loaded with `ssreflect`-related files; no theorem uses them.
* The reading of the Rust source: the model is a transcription by hand (the character tables are
  extracted by script). `RepoTests` replays the assertions of the repository's tests on it.
* The behaviour of Rust's standard library and of the dependencies as described below.

### Modelled

`src/chanoma.rs`, `src/corr.rs` and `src/corr/*`, `src/table.rs`, `src/characters_set.rs` and
`src/characters_set/*`, `src/position.rs`, `src/modifier.rs`, `src/modifier_kind.rs`, all of
`src/modifier/*`, `src/file.rs`, `src/file_extension.rs`, `src/configuration.rs`, `src/error.rs`,
`src/main.rs`, `src/bin/output.rs`, the classes and
functions of `bindings/python3` (their effects, without the glue). From dependencies: the `csv`
crate's reader and writer on bytes (csv-core's automaton with its epsilon moves removed, default
settings), `str::replace`, `char::is_whitespace`-based splitting, `Path::{extension, push,
set_extension, display}`, UTF-8 encoding and decoding, clap 3.1's treatment of the arguments of `main.rs` and `output.rs`
(Unicode arguments; help, version and usage errors are one result, "not run", told apart only in `Ending` for C89: an unknown
option, a second text, help and version end the parsing where they are found, repeated flags and missing values are noticed
only at the end; the texts printed are not modelled), and for C87, C88 and C91 the text `serde_yaml` 0.8
(with yaml-rust 0.4) prints for a `SerializedCorr` (the number of final line feeds differs between its versions and is
arbitrary here), and what it reads in a part of YAML: one document of block mappings, block sequences, one-line flow
sequences and mappings (no trailing commas, no empty values), plain, double-quoted or single-quoted one-line scalars, comments,
carriage returns before line feeds, nested at most 100 deep. This part is given by the grammar `document_text` of `YamlSpec`, and
`yaml_file`, the assumption of these theorems, mentions nothing else; `C91_reader` proves that the reader of `YamlText`, which the
proofs compute with, reads the texts of this grammar and no others. About other texts (empty documents, scalars on which versions
differ such as superfluous zeros, exponents, `0x…` and words like `yes`, anchors, block scalars) the theorems claim nothing.

For C94 a writer is a device that at each use succeeds or fails after some bytes; csv's buffer (8 KiB, passed on when the next
piece does not fit, tried again when dropped) is modelled exactly, the line buffer of standard output as arbitrary pieces.

For C114 (`ShellPipe`) a pipe hands on all bytes a run writes to standard output; that the reader closes the pipe early, which
can make the earlier run fail to write (C94), does not change what the later run has read, and is left out.

### Not modelled

* Arguments that are not Unicode, what the panic handler writes around a panic message (the message of `main.rs:25` is modelled, what `{:?}` prints for a wrapped library error is a parameter; the messages of `unwrap` are not, being always the fixed text of `Option::unwrap`; the place they name, the method name as since Rust 1.47, is modelled in `PanicPlace`), what env_logger puts around a log message (which lines are logged, and their messages for Unicode paths, are modelled; the standard library's table of printable characters and whether `{:?}` of a path escapes single quotation marks are parameters; `\0` for U+0000 as since Rust 1.53), pyo3 glue, benches, Docker/CI.
* YAML syntax in general: `serde_yaml` is a function from files to its `Value` type, quantified over. Only C87, C88 and C91 say
  what this function is, for a part of YAML (see below).
* Allocation failure and stack exhaustion.

### Simplifications

* Outside Race.v the world is a static snapshot during one load: a file read twice (as in `load_file_with_ext`) is the same both times.
  Race.v (C81) lifts this: every access sees its own world; opening and reading one file remains one access.
* The iteration order of one hash map may differ between two traversals. This only adds behaviours.
* CSV: the header row is read as bytes, so only a read error in it is reported. The state after CR is
  merged with the start of a record. A file is its bytes, or a prefix followed by a read error.
* YAML numbers and booleans carry no content, because the code only distinguishes strings, sequences,
  mappings and the rest. Duplicate keys are the library's concern.
* `Vec::sort` is an insertion sort (any stable sort gives the same list); strings compare by code
  points (C53 proves that this is the byte order).
* Standard input is an optional text in `Cli` (`None`: read error or invalid UTF-8); `Process` derives it from bytes.
* `usize` is `nat`. C72 proves that position numbers are bounded by the text, so wrap-around cannot occur.
* Payloads of wrapped library errors are dropped; `error_text` takes their text as a parameter.
* `Path::display` replaces each non-Unicode unit by U+FFFD; a unit stands for a maximal ill-formed byte sequence.

## Behaviour found while modelling

* `to_csv` writes no header but the reader skips one, so an exported table loses its first row (C40, C71).
* README's list form of YAML `items` panics; a multi-character item is cut to its first character (C42, C54).
* In YAML, `items` lines are `replacement: replaced`, `character_converter` lines `replaced: replacement`; a number without
  quotation marks in `items` panics (C88).
* An empty string on either side of an item panics when a converter is built (C05).
* `.yml` works as an explicit file but `CHANOMARC=x.yml` is an error, and `chanomarc.yml` is never
  found; a `CHANOMARC` file without extension panics; `HOME` = working directory loads files twice (C45-C48).
* `RcFileLoadError` says "file does not exist" for existing files with an unsupported extension; an
  existing modifier given a value is reported as non-existent (C50, C67).
* A missing CSV file is `CsvFileLoadError`, a missing YAML file a raw I/O error (C67).
* dropping the `csv::Writer` returned by `to_csv_writer` loses an incomplete export silently; a cut export loads, perhaps with an item the table never had (C94).
* normalising twice need not be like normalising once, even where every modifier alone is idempotent (C93).
* `from_csv_path` and `new` + `add_from_csv` convert differently for conflicting rows (C58); so does removing nothing, which sorts (C92).
* Reducer positions do not locate the run, and index + length can exceed the text (C14, C72).
* Neologdn needs two passes to stabilise (C26); the ligature result can depend on hash order (C22).
* `normalize` panics on an empty pipeline in debug mode, though a comment promises an empty text (C32).
* Comma and white space cannot be eliminated through a description string (C50).
* CRLF on standard input leaves the CR in the text; `RUST_LOG` is always overwritten (C51).

## Testing against wrong programs

`seeded/LOG.jsonl` has one line per attempt. Each attempt edits one definition of the model in a scratch
copy like a realistic bug and rebuilds everything; a proof that breaks is admitted so that later files
still compile. `theorems_failed` lists the property theorems whose proofs no longer go through, because
their own proof broke or because they use a lemma whose proof broke. Lines noted as inconclusive are edits
whose build did not finish in time: no theorem is known to fail for them, and they are not counted as caught.
Six of these lines were for a while recorded as caught (C104_same). They had been rerun with a time limit per
proof step that the unedited model did not meet either, in an unrelated lemma; that lemma's proof is now fast,
the verdicts were withdrawn, and runs with such a limit are accepted only after the unedited model builds under it.

What a line does and does not say:

* A theorem is listed when its proof, or the proof of a lemma it uses, stopped working. That the theorem is false of
  the edited model is not proved. It could in principle have another proof.
* Which theorems use a lemma is read from the references Coq recorded for the present files (`.glob`). For lines
  whose id begins with `auto`, and for M9xx and most M8xx, this includes theorems added after the attempt.
* Earlier versions of this log matched lemma names in the text of the files for those lines. Names that occur in
  several files, or as bound variables, were confused, so the lists were much too long
  (137,183 entries in all, against 85,032 for the same attempts now). All were recomputed. References made only inside an `Ltac` definition are not seen,
  so a list may now be too short.
* For the M8xx run last, M9xx and second attempts at M8xx, only the files that the named claims
  need were rebuilt, so theorems of other claims may fail as well.
* M226, M504 and M643 are withdrawn: their edits do not type-check, so everything behind them failed to build, and
  that had been counted as caught. M971, M972 and M973 take their place.
* In M091 and M536 a file ran out of time and all its theorems had been counted. Only those resting on a lemma that
  was seen to fail are listed now.
* M536, M858, M859, M865, M874, M878, M885, M888 and M900 no longer showed the claim named in them to fail once the
  lists were exact. All but M536 were run again on the theorems of that claim, and have a second line. In M858, M859,
  M878 and M888 proofs of it fail. In M865, M874, M885 and M900 none does: the claim had been named wrongly, and theorems of other
  claims fail. For M536 it is not known whether C91 fails.
