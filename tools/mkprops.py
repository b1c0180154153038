#!/usr/bin/env python3
"""Writes /verif/properties.jsonl (one JSON object per property)."""
import json
P=[]
def p(title, statement, quantifier, why, anchors):
    P.append(dict(id="C%02d"%(len(P)+1), title=title, statement=statement,
                  quantifier=quantifier, why_tests_cant=why, anchors=anchors))
CC="src/modifier/character_converter.rs"; CE="src/modifier/character_eliminator.rs"
CR="src/modifier/consecutive_character_reducer.rs"; DS="src/modifier/dotted_space_eliminator.rs"
LT="src/modifier/ligature_translator.rs"; TR="src/modifier/trim.rs"; NE="src/modifier/neologdn.rs"
CH="src/chanoma.rs"; CO="src/corr.rs"; TA="src/table.rs"; FI="src/file.rs"; CF="src/configuration.rs"
FE="src/file_extension.rs"; MK="src/modifier_kind.rs"; MO="src/modifier.rs"; PO="src/position.rs"
ANYHASH="Every run of the process picks its own hash seed, so the iteration order is different each time; a test observes one order."

p("Table conversion is a pointwise character substitution",
  "Normalising a text with a one-to-one character table returns a text with the same number of characters in which every character that is a key of the table is replaced by its value, every other character is unchanged, and nothing is reordered; the call never panics and the result does not depend on hash iteration order.",
  "all tables, all texts, all iteration orders of the internal hash map", ANYHASH, [CC+": CharacterConverter::modify"])
p("Conversion positions are exactly the substituted characters",
  "normalize_with_positions with a table converter yields the same text as normalize and exactly one position entry for every occurrence of a table key in the input: from/to are that character and its replacement, index is its character index, utf8_index its byte offset, length its UTF-8 length, utf8_length 1; no other entry appears, in any hash order.",
  "all tables, all texts, all iteration orders", ANYHASH, [CC+": CharacterConverter::modify_with_positions, CharPos", PO+": Position"])
p("Conversion positions replay to the output",
  "Applying the reported conversion positions to the input (substituting `to` for the character at `index`) rebuilds exactly the returned text, in whatever order the entries are applied; and the `utf8_index`/`length` fields cut exactly `from` out of the input bytes.",
  "all tables, all valid texts, all iteration orders", "The claim links two outputs for every input and order.", [CC+": CharacterConverter::modify_with_positions"])
p("Conflicting table entries: the last item wins",
  "When a converter is built from a list of tables, a character is converted according to the last item, over the tables in order and their items in order, whose `from` starts with that character; the replacement is the first character of that item's `to`.",
  "all lists of tables with non-empty from/to strings, all characters", "Needs every combination of conflicting items.", [CC+": CharacterConverter::from_tables"])
p("A converter can be built exactly when no item string is empty",
  "Building a Chanoma from tables panics if and only if some item of some table has an empty `from` or an empty `to`; otherwise it succeeds.",
  "all lists of tables", "The boundary is over all tables.", [CC+": CharacterConverter::from_tables", CH+": from_table, add_table"])
p("When table conversion is idempotent",
  "Normalising twice with a table equals normalising once for every text if and only if no replacement character is itself a key with a different replacement.",
  "all tables, all texts", "An iff over all texts.", [CC+": CharacterConverter::modify"])
p("Preset conversion: exact character map",
  "The preset maps full-width digits, letters and punctuation (U+FF01..U+FF5D except U+FF02 and U+FF07) to the ASCII character 0xFEE0 below, U+FFE5 to the yen sign, U+201D, U+2019 and U+301C to the ASCII quote, apostrophe and tilde, half-width katakana and kana punctuation to their standard full-width forms, the ideographic space to a space, and leaves every other character unchanged.",
  "all Unicode characters", "1.1 million characters times arbitrary contexts.", ["src/characters_set.rs: ALL", "src/characters_set/digits.rs", "src/characters_set/punctuations.rs", "src/characters_set/alphabets.rs", "src/characters_set/kanas.rs", CH+": preset, use_preset"])
p("Preset normalisation is idempotent",
  "Normalising with the preset a second time changes nothing, and the result contains none of the characters the preset converts.",
  "all texts, all iteration orders", "All texts.", [CH+": preset"])
p("Preset leaves half-width voicing marks and the half-width prolonged sound mark",
  "Half-width katakana text is not fully widened by the preset: among U+FF61..U+FF9F exactly U+FF70, U+FF9E and U+FF9F are left unchanged, so a half-width voiced kana becomes a full-width base followed by a half-width mark; the expectation that the preset output never contains half-width katakana is false.",
  "all characters of the half-width block; all texts", "A claim over the whole block and its contexts.", ["src/characters_set/kanas.rs: Kanas::items"])
p("Elimination removes exactly the listed characters",
  "Eliminating a set of characters returns the input with exactly the listed characters removed: kept characters keep their order and multiplicity, and the result depends only on which characters are listed, not on their order or repetition. It is idempotent.",
  "all character lists, all texts", "All lists and texts.", [CE+": CharacterEliminator::modify, from_chars"])
p("Run reduction collapses each maximal run of the character to one",
  "Reducing a character replaces every maximal run of it by a single occurrence and leaves all other characters in place; the result never has two adjacent occurrences and reducing again changes nothing.",
  "all characters, all texts", "All run structures.", [CR+": ConsecutiveCharacterReducer::modify"])
p("Run reduction: the positions variant returns the same text",
  "The separately written positions variant of run reduction returns, for every text, the same text as the plain variant.",
  "all characters, all texts", "Two different loops must agree everywhere.", [CR+": modify_with_positions"])
p("Run reduction: one position per maximal run, with its exact length",
  "Run reduction reports exactly one position per maximal run of the character (including runs of length one), in text order, with `from` the whole run, `to` a single character, `length` its byte length and `utf8_length` its character count; the lengths never overflow the input length and no subtraction underflows.",
  "all characters, all texts", "All run structures.", [CR+": modify_with_positions"])
p("Run reduction positions do not locate the run",
  "The reported index is the byte offset, in the output, just after the kept character, and utf8_index is the character index in the input just after the run, except for a run at the end of the text where it is the byte length of the input minus the run's character count; hence the expectation that index/length (or utf8_index/utf8_length) cut `from` out of the input is false.",
  "all characters, all texts; and a concrete counterexample", "The defect shows only for particular placements of multi-byte characters.", [CR+": modify_with_positions"])
p("Dotted-space elimination keeps only spaces between ASCII alphanumerics",
  "Every maximal run of spaces is replaced by a single space if the characters right before and after it are ASCII letters or digits, and removed otherwise; all other characters are kept in order.",
  "all texts", "All space layouts.", [DS+": DottedSpaceEliminator::modify"])
p("Dotted-space elimination is idempotent and subsumes trimming and space reduction",
  "Its result has no leading, trailing or doubled space, running it again changes nothing, and trimming spaces or collapsing space runs before it does not change the result.",
  "all texts", "All texts.", [DS+": DottedSpaceEliminator::modify", TR+": Trim::modify", CR])
p("Trim removes exactly the outer ASCII spaces",
  "Trim removes all leading and trailing U+0020 and nothing else: the input is spaces, the output, spaces; the output does not begin or end with U+0020; other white space is kept.",
  "all texts", "All texts.", [TR+": Trim::modify"])
p("Trim positions are exact",
  "The positions variant of trim returns the same text and one entry for the removed prefix (if any) and one for the removed suffix (if any, and only if the text is not all spaces); index/length are byte offsets and utf8_index/utf8_length character offsets that cut `from` out of the input, no subtraction underflows, and deleting the reported ranges gives the output.",
  "all texts", "Byte and character offsets differ depending on arbitrary inner text.", [TR+": Trim::modify_with_positions"])
p("index/utf8_index mean different things in different modifiers",
  "The expectation that `index` is a byte offset of the change in the modifier's input is true of trim but false of table conversion (where `index` is a character index and `utf8_index` the byte offset) and of run reduction.",
  "all texts; concrete counterexamples", "Only visible on multi-byte prefixes.", [PO, CC, TR, CR])
p("Single-ligature replacement is leftmost non-overlapping replacement",
  "With one ligature entry with non-empty key, normalisation replaces, scanning from the left, each occurrence of the key by the value and resumes after it; other characters are unchanged. With an empty key the value is inserted before every character and at the end.",
  "all keys, values and texts", "All overlaps of key with text.", [LT+": LigatureTranslator::modify"])
p("Ligature maps: order independence under non-interference",
  "If the keys of a ligature map are non-empty, no two different keys overlap, and every value is non-empty and shares no character with any key, then the result is the simultaneous left-to-right replacement of all keys, whatever the hash iteration order, and no key remains in the result.",
  "all such maps, all texts, all iteration orders", ANYHASH, [LT+": LigatureTranslator::modify"])
p("Ligature maps: result can depend on hash iteration order",
  "Without that condition the result of the same configuration on the same text may differ between runs: the expectation that normalisation is deterministic is false for ligature maps whose keys overlap or feed each other.",
  "two iteration orders of one map and one text", "A test sees one seed at a time.", [LT+": LigatureTranslator::modify"])
p("Neologdn: plain and positions variants agree",
  "For every text, neologdn's positions variant returns the same text as neologdn normalisation although it skips the final space-elimination pass.",
  "all texts, all pairs of iteration orders", "Two different pipelines must agree on every text.", [NE+": Neologdn::modify, modify_with_positions"])
p("Neologdn result does not depend on hash order",
  "Neologdn normalisation of a text is the same for every iteration order of its character map and of its 52-entry ligature map, and never panics.",
  "all texts, all iteration orders", ANYHASH, [NE+": Neologdn::modify, Neologdn::new", LT])
p("Neologdn output shape",
  "Neologdn output contains no character of its conversion table's keys, no tilde variant, no kana followed by a separate (semi-)voiced sound mark it can compose, and spaces only singly between ASCII alphanumerics.",
  "all texts, all iteration orders", "All texts.", [NE+": Neologdn::modify"])
p("Neologdn stabilises after two passes, not one",
  "Normalising with neologdn three times equals normalising twice; a second pass only collapses adjacent prolonged sound marks; one pass is already stable exactly when its output has no two adjacent prolonged sound marks, in particular for inputs without spaces and tildes; the expectation that one pass is idempotent is false.",
  "all texts; a concrete counterexample", "All texts.", [NE+": Neologdn::modify"])
p("Neologdn conversion: exact character map",
  "Before the later stages, neologdn maps each character as the preset does except that the full-width equals sign is kept, the listed dash variants become the prolonged sound mark and the listed hyphen variants become the ASCII hyphen.",
  "all Unicode characters", "All characters.", [NE+": Neologdn::new, CHOONPUS, HYPHENS"])
p("Neologdn composes kana with voiced sound marks by the Unicode layout",
  "The ligature map of neologdn sends exactly the 21+21 voiceable hiragana and katakana followed by U+309B, and the 5+5 ha-row kana followed by U+309C, to the precomposed character, and nothing else.",
  "all character pairs", "All pairs of characters.", [NE+": KANA_TEN, KANA_MARU"])
p("Neologdn never reports positions",
  "The record produced by neologdn always has an empty position list, so the expectation that positions account for the change between input and output is false.",
  "all texts; a concrete counterexample", "All texts.", [NE+": modify_with_positions"])
p("A Chanoma applies its modifiers in the order they were added",
  "For every sequence of constructor and use_*/add_table calls, normalize applies the corresponding normalisations one after the other in call order; an empty Chanoma returns the text unchanged; concatenating two call sequences composes their normalisations.",
  "all call histories, all texts, all iteration orders", "All histories.", [CH+": new, preset, neologdn, from_table, use_preset, use_neologdn, add_table, normalize"])
p("normalize_with_positions records every stage",
  "normalize_with_positions returns one record per modifier in order; record k's kind is the k-th modifier and its text is the input of record k+1; text() of the result is the normalize result when there is at least one modifier.",
  "all pipelines, all texts, all iteration orders", "All pipelines.", [CH+": normalize_with_positions", MO+": ModifiedRecords"])
p("text() and debug-mode normalize panic exactly on an empty pipeline",
  "With debug logging off normalize never panics; with debug logging on it gives the same result if there is at least one modifier and panics if there is none. The expectation that the log level does not affect results is false.",
  "all pipelines, all texts, both log levels", "Needs every pipeline and both log levels.", [CH+": normalize", MO+": ModifiedRecords::text"])
p("Adding correspondences is sorted duplicate-free union",
  "items() of a sum of two correspondences is sorted, has no duplicates and contains exactly the items of either operand, independently of hash order; + is commutative, associative and idempotent on items.",
  "all correspondences, all iteration orders", ANYHASH, [CO+": Add, AddAssign"])
p("Subtracting correspondences removes exactly equal items",
  "items() of a difference is the sorted list of the left operand's items that do not occur in the right operand, with their multiplicities; an item with the same `from` but another `to` is not removed.",
  "all correspondences", "All correspondences.", [CO+": Sub, SubAssign"])
p("A table builder behaves like a set of items",
  "After any sequence of preset/add/remove calls starting from an empty builder, the built table's items are the strictly increasing list of the set obtained by the corresponding unions and differences.",
  "all call histories, all iteration orders", "All histories.", [TA+": Table, TableBuilder"])
p("For builder tables the greatest item decides conflicts, independently of call order",
  "A Chanoma built from a table made by add/remove calls converts a character by the greatest (from, to) item whose `from` starts with that character; two histories giving the same item set give the same normalisation.",
  "all call histories, all characters and texts", "All histories.", [TA, CC+": from_tables"])
p("Correspondence equality is list equality",
  "Two correspondences compare equal exactly when their item lists are equal; so for sums and differences without repeated items it coincides with equality of item sets, but two correspondences with the same items in another order are unequal.",
  "all correspondences", "All pairs.", [CO+": PartialEq for Correspondence"])
p("Grouping by replacement loses nothing",
  "item_map groups the items by `to`: keys are strictly increasing and are exactly the `to` strings, each group lists the `from` strings with that `to` in item order, no group is empty, and flattening gives a permutation of the items.",
  "all item lists", "All lists.", [CO+": Synthesized::item_map"])
p("CSV rows read as many-to-one items, the first row being skipped",
  "Reading a CSV table skips the first row and turns every further row f1..fn,to into items fi->to in row order; it fails with an error (never a partial table) if a row is unreadable.",
  "all CSV contents at row level", "All contents.", [FI+": table_from_csv_path"])
p("CSV export does not round-trip",
  "Reading back what to_csv_writer wrote gives the items of all groups except the first one, because no header is written; prefixing any header row restores exactly the items up to order.",
  "all correspondences; a concrete counterexample", "All correspondences.", [FI+": to_csv_writer, table_from_csv_path"])
p("YAML export round-trips",
  "Reading back what to_serialized_corr describes always succeeds and gives the same items up to order; a table builder that adds it ends up with the same table as one that adds the original.",
  "all correspondences", "All correspondences.", [FI+": to_serialized_corr, table_from_yaml_path"])
p("YAML table loading: exact success, and the documented format panics",
  "Loading the items of a YAML document succeeds exactly when `items` is absent or a mapping with string keys whose values are strings or sequences of strings, and otherwise panics; the expectation that the documented list-of-{from,to} format loads is false.",
  "all YAML documents", "All documents.", [FI+": table_from_yaml_path", "README.md", "examples/file/table.yaml"])
p("YAML modifiers load in document order or fail",
  "Loading modifiers gives one modifier per entry of `modifiers` in document order, each with the configured arguments; an unknown name or a value given to trim/dotted_space_eliminator/neologdn is an error; a wrongly typed or empty argument panics; nothing is skipped silently.",
  "all YAML documents", "All documents.", [FI+": modifiers_from_yaml_path", MK+": from_yaml_key_value"])
p("A configuration file yields its modifiers followed by its item table",
  "Loading a configuration file gives its modifiers in order followed by exactly one table converter made of its items; a CSV file gives only the converter.",
  "all file contents and paths", "All contents.", [CF+": load_file_with_ext, from_path", CH+": from_config_file"])
p("CHANOMARC overrides the search path",
  "If CHANOMARC is set (to Unicode text) only that file is considered: it is loaded if it is a regular file with extension csv or yaml, an error results if it is not a file or has another extension (including yml, contrary to the README), and a panic if it has no extension.",
  "all environments and file systems", "All environments.", [CF+": file_paths, valid_file_path, file_path_from_env", "README.md"])
p("Automatic configuration search order",
  "Without CHANOMARC, the existing files among <home>/.config/chanoma, <home>, <cwd> x chanomarc, .chanomarc x csv, yaml are loaded in exactly that order and their modifiers concatenated; no file gives an empty pipeline; any file that fails makes the whole load fail with the first failure.",
  "all environments and file systems", "All file systems.", [CF+": load, auto_load_dirs, auto_load_paths_from_dir, exists_file_paths"])
p("Running in the home directory applies home configuration twice",
  "If the current directory is the home directory, every configuration file found in it is loaded twice and its modifiers applied twice, which can change the result; the expectation that each configuration file is applied once is false.",
  "all environments; a concrete counterexample", "Depends on the environment.", [CF+": auto_load_dirs, load"])
p("File extension recognition",
  "A path is recognised as CSV exactly when its extension is csv and as YAML exactly when it is yaml or yml (case-sensitively); otherwise the error tells a missing, non-Unicode or unsupported extension; printing an extension and parsing it gives it back.",
  "all paths", "All paths.", [FE+": from_path, from_str, to_string"])
p("Auto-load candidates always have a supported extension",
  "For every directory, the candidate paths are the directory joined with the four documented file names, and each is recognised as its own format; so automatic loading never fails for a missing or unsupported extension.",
  "all directories", "All directory names, including ones with dots and trailing slashes.", [CF+": auto_load_paths_from_dir", FE])
p("Modifier names parse to the described modifiers",
  "Parsing a modifier description gives the described modifier, an error, or a panic, and the panics are exactly: one of the four function-style prefixes without a closing parenthesis at the end, or consecutive_character_reducer with an empty argument. Printed descriptions parse back.",
  "all strings", "All strings.", [MK+": FromStr for ModifierKind", CE, CC, LT, CR])
p("Command line behaviour",
  "The command line tool applies configuration modifiers, then the preset if -p, then neologdn if -n; without an argument it normalises the first line of standard input without its line feed; it panics if configuration fails, or if -d is given and no modifier is configured.",
  "all options, inputs, environments", "All combinations.", ["src/main.rs"])
p("Python constructor behaviour",
  "The Python Chanoma object applies configuration (configfile, else rc, else none), then the table, then the preset, then neologdn, and reports configuration errors; the Python Table combines preset, csv and yaml by set union.",
  "all argument combinations", "All combinations.", ["bindings/python3/src/lib.rs"])
p("Character-level modelling agrees with UTF-8 bytes",
  "UTF-8 encoding of valid texts is injective, preserves lexicographic order (so sorting by bytes is sorting by code points), and byte-level search-and-replace of a valid pattern equals character-level replacement.",
  "all valid texts and patterns", "All texts.", [LT+": str::replace", CO+": Ord for Item (String order)"])
p("CJK compatibility set defects",
  "The CJK compatibility table covers U+3300..U+33FF except U+33A4, which has no entry because its item is keyed U+33A3; U+33A3 therefore has two conflicting replacements, and a converter built from the table sends every key to the first character of its replacement only; the expectation that each CJK square is expanded is false.",
  "all characters of the block; all texts", "Whole block.", ["src/characters_set/cjk_compatibilities.rs", "src/characters_set.rs: All::items"])
p("Position equality and order look at index only",
  "Position equality is an equivalence and its order a total preorder compatible with it, but equal positions may differ in every other field; sorting the positions of a table conversion by that order gives the same list for every hash order.",
  "all positions, texts, iteration orders", ANYHASH, [PO])
p("Configuration errors versus panics when building the converter",
  "Loading a CSV or YAML file whose rows contain an empty string panics rather than returning an error, and multi-character keys are silently cut to their first character; files whose items all have single-character strings load to exactly the described substitution.",
  "all file contents", "All contents.", [CF+": load_items_to_character_converter", CC+": from_tables"])
p("CJK compatibility set against Unicode NFKC",
  "For every character, the replacement in the CJK compatibility table equals the Unicode compatibility decomposition of that character except for an explicit list of exceptions, which the theorem gives exactly; the expectation that the table is NFKC restricted to the block is false.",
  "all characters of the block", "Whole block compared with the Unicode data.", ["src/characters_set/cjk_compatibilities.rs"])
p("Table builders: what each way of loading a file gives",
  "TableBuilder::from_csv_path / from_yaml_path keep the file's items exactly as listed (order and repetitions included), while add_from_csv / add_from_yaml give the sorted duplicate-free union of the table and the file; adding commutes and adding twice is adding once; a failing file leaves no partial table. Both ways give the same conversion when no character has two different targets in the file; the expectation that they always do is false (last row versus greatest item).",
  "all file contents, tables, paths, iteration orders", ANYHASH, [TA+": TableBuilder", FI+": table_from_csv_path, table_from_yaml_path"])
p("The output tool prints the preset and its output can be loaded",
  "The `output` binary prints YAML for the format `yaml` and CSV for every other argument, the same text in every run; loading the YAML output gives exactly the preset conversion; loading the CSV output gives the preset conversion without the ideographic space (its first group is taken as a header), so the expectation that it reloads as the preset is false.",
  "all formats, iteration orders, texts", ANYHASH, ["src/bin/output.rs", FI+": to_csv_writer, to_serialized_corr"])
p("Characters that play no part in neologdn",
  "The characters that neologdn neither converts nor produces, collapses, removes or composes form the same subsequence before and after neologdn; they are exactly the characters whose number of occurrences never changes. The half-width (semi-)voiced marks are among them, so half-width voiced kana are not composed, contrary to the expectation.",
  "all characters, all texts, all iteration orders", "An iff over all texts.", [NE])
p("Normalisation never makes a text longer, except through ligatures",
  "The preset keeps the number of characters and neologdn never increases it; neither increases the number of UTF-8 bytes. No pipeline without a ligature translator increases the number of characters; a ligature translator can, and a converter can increase the number of bytes.",
  "all texts, pipelines, iteration orders", "All texts and pipelines.", [CH, NE, CC, CE, CR, DS, TR])
p("Preset and neologdn commute",
  "use_preset then use_neologdn gives the same results as use_neologdn then use_preset, namely neologdn after replacing full-width equals signs; after neologdn the preset changes full-width equals signs only, so the expectation that neologdn includes the preset is false.",
  "all texts, all iteration orders", "All texts.", [CH+": use_preset, use_neologdn", NE])
p("Which normalisations can be applied piece by piece",
  "neologdn applied to a text cut at characters that play no part in it (e.g. line feeds) equals the pieces normalised separately; pipelines of converters and eliminators may be cut anywhere; for the reducer, trim and neologdn cutting anywhere gives a different result in general.",
  "all texts, cuts, pipelines", "All cuts of all texts.", [CH, NE, CC, CE])
p("Pipelines with safe ligature maps do not depend on the hash order",
  "A pipeline whose ligature maps have at most one entry or do not interfere gives the same result for every iteration order and log level (empty pipelines aside); this includes everything built with use_preset, use_neologdn and add_table.",
  "all pipelines, texts, iteration orders", ANYHASH, [CH, LT])
p("ASCII texts",
  "The preset leaves every ASCII text unchanged; neologdn removes from an ASCII text the spaces not between letters or digits, shortens the other runs of spaces, then removes the tildes, and changes nothing else.",
  "all ASCII texts, iteration orders, log levels", "All texts.", [CH+": preset, neologdn", NE])
p("YAML items and character_converter describe the same conversion",
  "A YAML file with only `items` and one with only a `character_converter` modifier listing the same pairs convert every text alike, provided no character is given two replacements; with conflicting entries, or beside other modifiers (items always come last), the expectation that one can be written for the other is false.",
  "all YAML documents, texts, iteration orders", "All documents.", [FI+": table_from_yaml_path", CF+": load_file_with_ext", CC+": from_yaml_value"])
p("Errors and their messages",
  "from_config_file reports exactly the documented error for each cause and never RcFileLoadError; load_rc reports RcFileLoadError only for CHANOMARC and never an extension error; different errors have different messages, which show the path as given; the Python constructor raises exactly that message. The expectations that `the configuration file does not exist` is only said of files that do not exist, and `non-existent modifier` only of unknown names, are false.",
  "all paths, file systems, environments", "All environments and file contents.", ["src/error.rs: Error", CF+": valid_file_path, load", FE+": from_path", "bindings/python3/src/lib.rs: Chanoma::new"])
p("The character sets of the Python module",
  "The Python classes Digits, Alphabets, Kanas and Punctuations contain exactly the preset pairs of that kind (the ideographic space being among the kanas), CjkCompatibilities the CJK squares; adding any selection to an empty Table gives the preset table exactly when the selection is those four, in any order and number; adding CjkCompatibilities converts squares to their first character only, so the expectation that it expands them is false.",
  "all selections, iteration orders", ANYHASH, ["bindings/python3/src/characters_set.rs", "bindings/python3/src/lib.rs: Table"])
p("CSV files as bytes: what a file describes",
  "A file that is a CSV text (fields plain or quoted with doubled quotation marks, rows ended by LF, CR or CRLF, blank lines anywhere, final line end optional, byte order mark optional, UTF-8) loads as exactly the items of its rows after the first; the rows of a text are unique, and line ends, needless quoting, blank lines and byte order mark make no difference.",
  "all CSV texts", "All byte strings of the grammar.", [FI+": table_from_csv_path"])
p("Loading a CSV file never panics",
  "Whatever bytes a CSV file holds, and whether or not reading breaks off, loading gives a table or CsvFileLoadError and never panics (`record.iter().last().unwrap()` never fails); every UTF-8 text loads; a read error anywhere is an error; otherwise the error occurs exactly when a field after the header row is not UTF-8.",
  "all byte strings", "All byte strings.", [FI+": table_from_csv_path"])
p("CSV export as bytes",
  "The bytes to_csv_writer produces are a CSV text of the exported rows, whatever quotation marks, commas, line ends or byte order marks the items contain; loaded again they give everything but the first group, below a header line everything; the output tool never fails, prints that text with an extra line feed, and its output as a configuration file acts like the preset except for the ideographic space.",
  "all tables, iteration orders", ANYHASH, [FI+": to_csv_writer", "src/bin/output.rs: output"])
p("Positions stay within the text",
  "In every stage of every normalize_with_positions run, index, length, utf8_index and utf8_length of every entry are bounded by the text that stage was given, and `from` is a non-empty part-length of it, so no usize arithmetic overflows; for ASCII texts both numberings of table and trim entries coincide and cut `from` out of the text. The expectation that index..index+length lies inside the text is false for run reduction.",
  "all constructible pipelines, texts, iteration orders", ANYHASH, [PO, CC+": modify_with_positions", CR+": modify_with_positions", TR+": modify_with_positions"])
p("Arguments of the command line tool",
  "The tool accepts its arguments exactly when they consist of flags (--debug, --preset, --neologdn, or a hyphen with their initials), each given at most once, and at most one text, everything after `--` being text; without `--` the order of the arguments is irrelevant, and after `--` any text can be given. The expectation that any text can be given as the argument is false: a text starting with a hyphen, other than the hyphen alone, ends the tool or is taken for a flag.",
  "all argument lists (Unicode)", "All argument lists.", ["src/main.rs: Opts"])
p("The command line tool as a process",
  "The process writes exactly the UTF-8 bytes of the normalised text and a line feed, the text being the argument or else the first line of standard input; it reports a read failure exactly when no text was given and the first line cannot be read or is not UTF-8; the rest of the input (invalid bytes and read errors included) has no influence, nor has any of it when a text is given; it panics exactly when the configuration cannot be loaded, or in debug mode without modifiers.",
  "all argument lists, bytes on standard input, file systems, iteration orders", ANYHASH, ["src/main.rs: main", CH+": load_rc, normalize"])
p("Which modifiers can be exchanged",
  "For every pair of character conversion, elimination, run reduction, trimming and dotted-space elimination it is determined exactly when the two orders in a pipeline give the same result for every text: elimination with elimination, reduction with reduction or trimming, and trimming with dotted spaces always; elimination with reduction (trimming, dotted spaces) exactly if the reduced character (the space) is eliminated or nothing is; reduction with dotted spaces exactly for the space and ASCII letters and digits; conversion with another modifier exactly if no conversion enters or leaves the characters that modifier looks for. The expectation that the order of modifiers does not matter is false.",
  "all such modifiers, texts, iteration orders", ANYHASH, [MO, CC+": modify", CE+": modify", CR+": modify", DS+": modify", TR+": modify"])
p("Where the characters of a result come from",
  "Every character of a normalised text is one of the text or one introduced by a modifier of the pipeline; a conversion introduces exactly the results of converting other characters, a ligature map exactly the characters of a value that are not in its key, neologdn exactly its conversion results other than tildes and the composed kana, the other modifiers none; each of these does occur for some text. So the result consists of Unicode scalar values again, and the characters no modifier looks for or writes are all kept, in order.",
  "all constructible pipelines, texts, iteration orders", ANYHASH, [MO, CH+": normalize", CC+": modify", LT+": modify", NE+": modify"])
p("Equality of modifiers",
  "Two ModifierKind values are equal exactly if they are of one kind and have the same contents, whatever the insertion or hash order; this is an equivalence. Equal modifiers give the same results and positions. Loading a configuration twice gives equal modifiers, and the order of YAML entries makes no difference unless one overwrites another. Eliminators, reducers, and converters without identity entries that give the same results are equal; the expectation that modifiers with the same results are always equal is false.",
  "all constructible modifiers, texts, iteration orders, files", ANYHASH, ["src/modifier_kind.rs: ModifierKind (PartialEq, Eq)", CC, CE, CR, LT, NE, CF+": from_path, load"])
p("Programs using the Python module",
  "In a Python program that makes tables and Chanoma objects, adds to tables and normalises texts, while files and environment may change between calls, every answer is as follows: a Table is the set of items of its constructor's files (as they are at that moment), the preset if asked for, and everything added later; a Chanoma does what its configuration says, then replaces characters by the greatest matching item its table had at that moment, then preset, then neologdn; a call that fails leaves all objects as they were and makes none; normalize never fails. Conversely all these answers occur. What a configuration says is determined by the files. No later call or change of files changes what an existing Chanoma does.",
  "all programs (call sequences), file systems at each call, iteration orders", "All call sequences and all changes of the file system between calls.", ["bindings/python3/src/lib.rs: Chanoma, Table", CH+": add_table, use_preset, use_neologdn", TA+": Table::add", CF+": from_path, load"])
p("The output tool as a process",
  "The output tool accepts its arguments exactly when they give the format at most once (-f V, -fV, -f=V, --format V, --format=V, a separate V being a hyphen or not starting with one), perhaps followed by `--`; without a format it is csv. It then prints YAML of the preset table for exactly `yaml` and the same CSV bytes for every other format, in every run alike, and never panics; the CSV bytes redirected to a file act as a configuration like the preset except for the ideographic space. The expectations that an unknown format is refused, and that `yml` or `YAML` give YAML, are false.",
  "all argument lists (Unicode), iteration orders", ANYHASH, ["src/bin/output.rs: Opts, Format, main"])
p("The debug log of the command line tool",
  "Without the debug flag nothing is logged. With it, the log consists of one line about CHANOMARC if that is set (whether or not the path is usable), one line with the files about to be loaded unless CHANOMARC is refused (then the first line is the last), and one record per modifier, configuration first, then preset and neologdn, each record being what that modifier reports for the text of the record before; no record if loading fails or no text can be read. Every such sequence of records occurs. The line printed is the text of the last record, and logging does not change what the tool does.",
  "all argument lists, bytes on standard input, file systems, environments, iteration orders", ANYHASH, ["src/main.rs: main", CF+": load, file_paths", CH+": normalize, normalize_with_positions"])
p("Files changing while a configuration is loaded",
  "Let every access to environment and file system (the variable, home, current directory, each is_file test, each reading of a file) see its own state. Then loading gives a configuration exactly when the chosen files can be read in turn, a CSV file once, a YAML file twice, and the configuration does what the items of the first reading and the modifiers of the second say, the files being those that were there when it was their turn to be looked at; if nothing relevant changes this is the ordinary load. A file found but gone when it is read is an error, never skipped. A CSV file, or a YAML file of which only items or only modifiers change, is loaded as its old or its new version; the expectation that this holds of every file is false.",
  "all histories of files and environment, iteration orders", "All interleavings of changes with the accesses of a load.", [CF+": load, load_file_with_ext, file_paths", FI+": table_from_yaml_path, modifiers_from_yaml_path", CH+": load_rc, from_config_file"])
p("Which texts can be results",
  "A text is the result of neologdn for some text exactly if it has the shape of C25; of the preset exactly if it contains no convertible character; of a conversion exactly if each character is a replacement or not itself replaced; of an elimination, a run reduction, trimming or dotted-space elimination exactly if it contains none of the characters, no two adjacent ones, no outer space, or spaces only between ASCII letters and digits; of non-interfering ligatures exactly if no key occurs in it.",
  "all texts, modifiers, iteration orders", ANYHASH, [CC+": modify", CE+": modify", CR+": modify", DS+": modify", LT+": modify", TR+": modify", NE+": modify"])
p("Merging conversions and eliminations",
  "Every pipeline of character conversions and eliminations acts like one elimination followed by one conversion; conversions alone act like one conversion that takes each character through all tables in turn, eliminations alone like the elimination of all their characters. Two such pipelines act alike on all texts exactly if they do on all texts of one character.",
  "all such pipelines, texts, iteration orders", ANYHASH, [MO, CH+": normalize", CC+": modify", CE+": modify"])
p("The original text from the final text and the positions",
  "For a pipeline of conversions, run reductions and trims, the final text together with the positions reported by each stage gives back the original text: read the entries of a conversion backwards (in any order), put the entries of a reduction for the kept characters in turn, put the entry of a trim back at its end. Two texts with the same result and the same positions are therefore equal. For a first stage that is an elimination, dotted-space elimination, non-interfering ligature replacement or neologdn this is false: two different texts have the same records, whatever the later stages.",
  "all such pipelines, texts, iteration orders", ANYHASH, [CC+": modify_with_positions", CR+": modify_with_positions", TR+": modify_with_positions", MO, CH+": normalize_with_positions"])
p("The example files",
  "examples/file/table.csv loads as a configuration that converts exactly: what the preset converts (except the ideographic space, the full-width yen sign and the full-width hyphen), the dash variants and the full-width hyphen to the prolonged sound mark, the hyphen variants to the hyphen, the tildes to the tilde, and each CJK square to the first character of its replacement. examples/file/table.yaml lists the same pairs in the same order but makes loading panic. Used before neologdn the table changes no result, for texts without full-width hyphen, full-width equals sign and CJK squares. The expectations that the table covers the preset, or writes CJK squares out, are false.",
  "all texts, paths, iteration orders", "All texts; the whole file is checked, not samples.", ["examples/file/table.csv", "examples/file/table.yaml", CF+": load_file_with_ext", FI+": table_from_csv_path, table_from_yaml_path", CC+": from_tables"])
p("Characters that can be exchanged for each other",
  "Two characters can be exchanged in every text without changing results: for a conversion (and the preset) exactly if they become the same character; for an elimination exactly if they are equal or both eliminated; for run reduction, trimming and dotted-space elimination only if equal; for non-interfering ligatures exactly if alone they give the same result; for neologdn exactly if they become the same character or both become tildes. Exchanging several such characters or adding stages keeps this; texts have the same conversion result exactly if they agree up to such exchanges.",
  "all texts, characters, modifiers, iteration orders", ANYHASH, [CC+": modify", CE+": modify", CR+": modify", DS+": modify", LT+": modify", TR+": modify", NE+": modify"])
p("YAML export as text",
  "The YAML export of any table prints each replacement once, in increasing order, and below it what it replaces in the order of the items; a text is printed as it is unless it is empty, has a space at an end, begins with an indicator or a full stop or 0x, contains an indicator, quotation mark or most control characters, is a word like yes or null, or reads as a floating point number; otherwise between quotation marks with escapes. A table's YAML export, as printed text, is read back as exactly its items, if these consist of printable characters, tabs, line feeds and carriage returns, do not look like 0x, 0o or 0b numbers and the replacements are at most 150 characters. The output tool's YAML text lists, for every replacement character of the preset in increasing order, quoted if it is a digit or an indicator, the characters it replaces, exactly the preset, in every run alike; saved as a configuration file it acts like the preset (unlike the CSV export).",
  "all such tables, texts, iteration orders, numbers of final line feeds", ANYHASH, [FI+": to_serialized_corr, table_from_yaml_path", "src/bin/output.rs: main", CF+": from_path"])
p("YAML files as text",
  "The YAML sample of README.md for modifiers loads as the seven modifiers it names, in order; that for items, and examples/file/table.yaml, make loading panic. tests/resources/test.yaml loads as seven modifiers and one conversion of first characters (a line `D: d` under character_converter replaces D, a line `A: a` under items replaces a); bindings/python3/tests/test.yaml replaces the wide letters A to E. Any file of lines `replacement: replaced` or `replacement: [replaced, replaced]` under items, each text in double or single quotation marks or a plain word, no replacement twice, is the table of these items in order; if a replacement (unless its list is empty) or a replaced text is a decimal number, true, false, null or ~ without quotation marks, loading panics.",
  "all such files, paths, iteration orders", "All such texts; the repository's files are checked whole.", ["README.md", "tests/resources/test.yaml", "bindings/python3/tests/test.yaml", "examples/file/table.yaml", FI+": table_from_yaml_path, modifiers_from_yaml_path", CF+": from_path"])
p("How the tools end",
  "The command line tool shows its help, and nothing else, exactly if --help, or -h perhaps after other flag letters, comes before any `--`, unknown option or second text (repeated flags before it do not matter); the version likewise. It runs exactly for the argument lists of C73; any other list is a usage error. The exit status is 2 exactly for usage errors, 101 exactly for a panic, 0 otherwise; the expectation that a run with status 0 has printed a normalised text is false (standard input that is not UTF-8). The output tool shows help or version exactly if --help, -h…, --version, -V… follows options -f/--format only (even where their value is expected), and its exit status is always 0 or 2.",
  "all argument lists (Unicode), bytes on standard input, file systems, environments, iteration orders", ANYHASH, ["src/main.rs: Opts, main", "src/bin/output.rs: Opts, main"])
p('Which pipelines configuration files can describe',
  'One YAML configuration file describes exactly the pipelines that consist of modifiers of pairwise different kinds (in any order, with any contents) followed by one character converter; one CSV file describes exactly the single converters. The files found by load_rc without CHANOMARC describe exactly the concatenations of twelve parts, alternately of the CSV and the YAML form, each possibly missing (so at most 54 modifiers); with CHANOMARC set it is one file (at most 8 modifiers). For every list of modifiers of different kinds there is a file with the same effect. The expectation that every pipeline can be written as configuration files is false: two reducers in a row cannot.',
  'all pipelines of well-formed modifiers, all YAML documents without repeated keys, all CSV files as bytes, all file systems, home and current directories, all hash orders',
  'quantifies over all pipelines and all files; the impossibility half is about every possible file',
  [CF+": load, load_file_with_ext, load_modifiers, auto_load_paths_from_dir", FI+": modifiers_from_yaml_path, table_from_csv_path, table_from_yaml_path", MK+": from_yaml_key_value"])
p("Configuration files as text",
  "A YAML text of block mappings and sequences (any consistent indentation, nested behind hyphens, below hyphens or under keys, sequences also at the indentation of their key), one-line lists `[a, b]` and mappings `{a: b}` nested at will, texts in double quotation marks with escapes or in single ones, plain words, decimal numbers, true, false, null and ~, nested at most 100 deep, with blank lines and comments anywhere, also at the ends of lines, trailing spaces, line feeds with or without carriage returns, and perhaps a first line `---`, stands for one value, which the reader used in the proofs finds, and it finds none for other texts; if that value describes items and modifiers, the file loads and does what they say, and two texts of the same value load alike: quotation, escapes, the form of lists and mappings, indentation, comments and line ends make no difference. Every value (nested at most 100 deep) whose keys are texts of at most 150 characters (any characters), and at most one number, truth value or nothing per mapping, has such a text; so every pipeline of modifiers of different kinds followed by a converter (ligatures of at most 150 characters) is what some text loads as.",
  "all such texts, values, pipelines, paths, iteration orders", "All texts of the grammar, of any size and nesting.", [FI+": modifiers_from_yaml_path, table_from_yaml_path", CF+": from_path, load_file_with_ext", MK+": from_yaml_key_value"])
p("Programs using the library",
  "In a Rust program that makes tables (new, from items, from CSV or YAML files, clones), adds items, tables, files or the preset to them, removes items, makes Chanomas (new, preset, neologdn, from a table, from configuration files) and adds stages to them, while files, environment and log level change between calls, every answer is determined up to the hash order of ligatures: a table is the list it was made from until something is added (then the sorted set of all its items) or removed (then the sorted list without them); a Chanoma is its stages in order, a table giving the conversion it had at that moment; items(), normalize and normalize_with_positions answer accordingly. Failures are exactly unreadable files (an error if the file cannot be found, read or parsed or a modifier is bad, a panic only if it was read but does not describe what it should), tables with an empty string made into a converter (panic) and normalize on an empty pipeline while debug logging (panic); a failing call changes nothing. All these answers occur. What an object answers depends on no other call than the methods changing it. The expectation that removing nothing changes nothing is false.",
  "all programs (call sequences), file systems, environments and log levels at each call, iteration orders", "All call sequences and all changes of the file system between calls.", [TA+": Table, TableBuilder", CH+": Chanoma", CO+": AddAssign, SubAssign", CF+": from_path, load"])
p("Repeating a normalisation",
  "A pipeline of eliminations, run reductions, dotted-space eliminations and trims reaches a text it leaves alone after at most three passes (two if it has no elimination or no dotted-space elimination, one if neither), and the texts it leaves alone are exactly those that each of its modifiers leaves alone; fewer passes do not suffice. A Chanoma made by use_preset and use_neologdn in any order and number needs at most two passes, and one suffices for every text exactly if use_neologdn was not called exactly once. The expectation that every pipeline settles is false: a conversion may need any number of passes (below 55296) or swap characters for ever, a ligature may double the text every time.",
  "all texts, pipelines, iteration orders, numbers of passes", ANYHASH, [CE+": modify", CR+": modify", DS+": modify", TR+": modify", CC+": modify", LT+": modify", CH+": use_preset, use_neologdn, normalize"])
p("Output that cannot be written",
  "to_csv_writer on any writer: an export of at most 8192 bytes only fills the buffer, so no failure of the writer shows and nothing has been written when the function returns; a longer export uses the writer and panics if it fails. If into_inner then succeeds the writer has the whole export; a writer that failed for good has a beginning of it in every case, and every beginning can be all it has. into_inner succeeds exactly if neither writing the rest of the buffer nor flushing the writer fails, each attempt using the writer anew. The expectations that dropping the csv::Writer loses nothing silently, and that a writer that recovers holds a beginning of the export, are false. A CSV file cut between characters loads: as a beginning of the items of the whole file, followed perhaps by items of one replacement that the table never had. If the standard output of the command line tool fails, a beginning of the output arrives and the exit status is 101; it is 0 only if everything arrived; every proper beginning can be all that arrives. If standard input cannot be read, what is printed is \"error: \" with the message and a line feed, and the status is 0. Help, version and usage errors keep their status.",
  "all tables, writers (failing at any use after any number of bytes, for good or not), texts, cuts, argument lists, iteration orders", "All places at which a device can fail.", [FI+": to_csv_writer, table_from_csv_path", "src/main.rs: main"])
p("Looking for a text in a normalised text",
  "If a text occurs in (begins, ends) another, then its result occurs in (begins, ends) the result of the other, for every pipeline of conversions, eliminations, run reductions, dotted-space eliminations and trims. If the pipeline is conversions, eliminations and reductions, perhaps followed by one trim or dotted-space elimination (the preset is one), a result occurs in another exactly if it is the result of a part of the other text; the expectation that this holds for any order is false (trim first). Both are false for ligatures. For neologdn a match is always the result of a part; a part is found if neither it nor what follows it begins with a space, tilde, prolonged sound mark (or dash) or sound mark, exactly these characters being excluded, and not in general (a kana followed by its sound mark).",
  "all texts, pipelines of these modifiers, iteration orders", ANYHASH, [CC+": modify", CE+": modify", CR+": modify", DS+": modify", LT+": modify", TR+": modify", NE+": modify", CH+": normalize"])
p("The text of the debug log",
  "The message of each debug line is exactly the text a grammar of {:?} gives for the value reported (structures, tuples, lists, sets and maps with the names of the crate's types and fields, escaped texts and characters, numerals), in any order of the hash containers; it determines what the line reports: the path in CHANOMARC and whether it exists, the files to load in order, or a stage: the contents of its modifier (up to hash order), its text and its positions. So the log determines all intermediate texts, and two runs of the command line tool with the same log print the same. Every message is one line of printable characters (control characters, and characters the standard library does not show, are escaped); a text without quotation marks, backslashes and such characters stands in its line as it is.",
  "all log events, runs of the command line tool, iteration orders, tables of printable characters", ANYHASH, [MO+": ModifiedRecord", PO+": Position", MK+": ModifierKind", CF+": load, file_paths", CH+": normalize_with_positions"])
p("How far a change of the text reaches",
  "If two texts agree outside one stretch of m characters of the one and n of the other, their results agree outside one stretch of at most m + k and n + k characters, where k is 0 for conversions (so for the preset) and eliminations, 1 for run reduction, 2 for dotted-space elimination, 2 for neologdn, and for a pipeline of these the sum; these numbers cannot be smaller. So texts that are n changes of single characters (exchanged, inserted, removed) apart have results at most n (1 + k) such changes apart. For ligature maps whose keys cannot share characters in any text, not even a key with itself, with keys of at most K + 1 and values of at most V characters (and satisfying the conditions of C21), a stretch of m characters grows to at most (m + 2 K) V characters, also within a pipeline. For trimming and for ligature maps in general there is no such number: one changed character can change the result over any length.",
  "all texts, stretches, pipelines of these modifiers, iteration orders", ANYHASH, [CC+": modify", CE+": modify", CR+": modify", DS+": modify", LT+": modify", TR+": modify", NE+": modify", CH+": normalize"])
p("The presets and the width variants of Unicode",
  "In terms of the Unicode character database: the preset changes a character exactly if the database lists it as a full-width or half-width form, apart from a stated list it leaves alone (full-width quotation mark, apostrophe, tilde and white parentheses, half-width prolonged sound mark and sound marks, half-width Hangul, currency and other signs except the yen sign), and then to the character listed; and it changes the right double and single quotation marks and the wave dash to their ASCII look-alikes. So a text keeps its compatibility decomposition (hence its NFKC form) exactly if it has none of those three; this is false for neologdn. Replacing all width variants may be done before or after the preset or neologdn: the results are the same. The expectation that the preset leaves no width variants is false.",
  "all texts, all decompositions that treat width variants alike, iteration orders", ANYHASH, [CH+": preset, neologdn, normalize", "src/characters_set.rs: ALL", CC+": modify", NE+": modify"])
p("Renaming characters",
  "A renaming of characters (applied to every character of the text) that leaves alone the roles characters play in each modifier of a pipeline is not noticed: the result of the renamed text is the renamed result. For conversions, eliminations, run reductions, dotted-space eliminations and trims the condition stated (the reduced character and the space are kept and nothing else becomes them, letters and digits stay such, eliminated characters stay such, conversion respects the renaming) is exactly the one needed; for ligatures it is sufficient only. In particular lower-casing Latin letters, full-width ones included, may be done before or after the preset or neologdn, while lower-casing ASCII letters alone may not.",
  "all texts, renamings, pipelines, iteration orders", ANYHASH, [CC+": modify", CE+": modify", CR+": modify", DS+": modify", LT+": modify", TR+": modify", NE+": modify", CH+": normalize"])
p("What the command line tool says when it refuses its configuration",
  "The panic message of the command line tool for a configuration that cannot be loaded: there is one exactly if loading fails with an error, and it is exactly what the grammar of {:?} (C96) gives for that error (the name of the variant and its escaped path or text, or what the wrapped library error prints); the run then ends with a panic whatever the options and the input; the message does not depend on hash iteration order. The message determines the error and the path or text in it, and is on one line (unless a wrapped library error prints otherwise). It names a path only if CHANOMARC names no file or a file of an extension other than csv and yaml, and then that path. The expectation that it tells which of the configuration files is wrong is false.",
  "all file systems and environments with Unicode CHANOMARC, options, inputs, iteration orders, tables of printable characters", ANYHASH, ["src/main.rs: main", "src/error.rs: Error", CF+": load, valid_file_path"])
p("A text read backwards",
  "For a pipeline of conversions (the preset is one), eliminations, run reductions, dotted-space eliminations and trims, the result of a text read backwards is the result of the text, read backwards; so palindromes stay palindromes. A pipeline may also have ligature maps that satisfy the conditions of C21 and whose keys share no characters in any text: then the pipeline with these maps read backwards (keys and values) does on backward texts exactly what the pipeline does on the texts. The expectation that this holds for every map meeting the conditions of C21 is false (a key that overlaps itself). Neologdn gives the backward result exactly if, in the text as it is when the composing begins, no kana stands directly before or behind a sound mark it could be composed with; in particular for texts without sound marks and characters converted to them; not in general.",
  "all texts, pipelines of these modifiers, iteration orders", ANYHASH, [CC+": modify", CE+": modify", CR+": modify", DS+": modify", LT+": modify", TR+": modify", NE+": modify", CH+": normalize"])
p("How long results get",
  "With one ligature the key is replaced as often as it fits into the text: the greatest number n of places without common characters at which it stands; so the result is shorter by n times the length of the key and longer by n times the length of the value. An empty key puts in its value once more than the text has characters. With a map meeting the conditions of C21 the same holds for every key at once. A pipeline whose maps have no empty keys makes a text longer at most by the product, over its maps, of V to the number of entries (V, at least 1, the length of the longest value), whatever the iteration order; this is reached for any number of entries below 55296: a map that makes one character into 2 to the number of its entries.",
  "all texts, ligature maps, pipelines, iteration orders", ANYHASH, [LT+": modify", CH+": normalize"])
p("Superfluous modifiers",
  "For two adjacent modifiers out of conversions, eliminations, run reductions, dotted-space eliminations and trims, the second changes no result of the first exactly if the table in SuperfluousSpec says so (for example: a conversion that leaves alone what the first produces, an elimination of eliminated characters, a run reduction or trim of spaces behind a dotted-space elimination, anything on spaces behind an elimination of the space); and the first makes no difference to the second exactly if the corresponding table says so (a conversion a before a conversion b if b treats each character and its image under a alike, a trim or space reduction before a dotted-space elimination). Behind neologdn, dotted-space eliminations and trims are superfluous, run reductions exactly for the space and for characters neologdn never leaves, eliminations exactly of such characters, conversions exactly if they keep all others. Before neologdn, trims are superfluous, run reductions exactly for characters that become a space, a prolonged sound mark or a tilde, conversions exactly if neologdn makes each character and its image the same or both tildes; dotted-space eliminations and non-empty eliminations never are. So any part of neologdn's conversion table is superfluous on both sides (the preset is not: it converts the full-width equals sign). A superfluous modifier can be left out within every pipeline.",
  "all conversions, eliminations and run reductions; all texts; all pipelines around them",
  "Each claim that a stage may be dropped is a statement about all texts, and each exact condition ranges over all tables; tests show single texts on which dropping a stage makes no difference.",
  [CH+": normalize", NE+": modify", DS+": modify", CR+": modify", CE+": modify", CC+": modify"])
p("Where the code panics",
  "For every configuration file the defect that leads to a panic, and the place (file, line and column of the unwrap) the panic message names, determine each other: loading panics at a place exactly if the file has the defect of that place and no earlier one, in the order in which the file is looked at (a CSV record without fields; items that are no mapping; the first entry of items that is not text on both sides; the first item with an empty side; then modifiers that are no mapping; the first modifier, none before it being refused with an error, that has a name that is not text, a value of the wrong kind, or an entry that is no text or empty). Loading all configuration panics exactly so for the file named by CHANOMARC (csv or yaml), for a CHANOMARC file without extension, or for the first of the found files that cannot be loaded. The command panics at these places, at main.rs:25 if the configuration is refused with an error, and at modifier.rs:75 if debugging without modifiers; parsing a modifier panics at the unwrap of the closing parenthesis or of the missing character. There are no other places; iteration order does not matter.",
  "all files, YAML documents, CSV records, file systems and environments with Unicode CHANOMARC, options, inputs, modifier descriptions, iteration orders",
  "All documents with any number of defects at once: which of them is reported is a statement about all others being absent before it.",
  [CF+": load, from_path, valid_file_path", FI+": table_from_csv_path, table_from_yaml_path, modifiers_from_yaml_path", MK+": from_yaml_key_value, FromStr", CC+": from_yaml, From<Vec<Table>>", CE+": from_yaml", CR+": from_yaml, FromStr", LT+": from_yaml", "src/main.rs: main"])
p("When two texts have the same result",
  "Two texts have the same result exactly if one can be turned into the other, through texts only, by doing and undoing small changes: for an elimination, removing an eliminated character; for a run reduction, merging two adjacent occurrences; for the dotted-space elimination, removing a space that is not between two ASCII letters or digits; for the trim, removing a space at an end; for a conversion table without chains (so for the preset), exchanging one character for its replacement; for a ligature map whose keys never share characters with each other or with replacements, exchanging one occurrence of a key for its replacement; for neologdn, exchanging one convertible character, and in texts without convertible characters: merging two prolonged sound marks, removing a space that is neither between ASCII letters or digits nor between prolonged sound marks, removing a tilde that has no space beside it and is not between prolonged sound marks, putting a space for a tilde between prolonged sound marks, and exchanging a kana and a following sound mark for the composed kana. For a table with a chain and for a ligature key that overlaps itself this is false: such an exchange can change the result.",
  "all pairs of texts; all tables, sets, characters and ligature maps of the stated kinds; all iteration orders",
  "Which texts share a result is a statement about all pairs of texts and about chains of changes of any length; tests compare single texts with single results.",
  [CE+": modify", CR+": modify", DS+": modify", TR+": modify", CC+": modify", LT+": modify", NE+": modify", CH+": normalize"])
p("Reading a text piece by piece",
  "For pipelines of conversions, eliminations, run reductions, dotted-space eliminations and trims, the result of a text is a prefix of the result of every longer text that begins with it. If such a pipeline is followed by conversions, eliminations, run reductions, n dotted-space eliminations or neologdns, and ligature maps that do not interfere, do not lengthen and have keys of at most K+1 characters, then of the result so far all but the last n plus the sum of the K characters begin every result of every continuation. For neologdn alone it is known exactly what is fixed: the whole result if its last character is not a kana that takes a sound mark, otherwise all but that kana. A trim behind neologdn takes back any number of characters: no bound exists.",
  "all texts and all continuations of them; all pipelines of the stated kinds; all iteration orders",
  "What is fixed is a statement about all continuations of a text; a test sees single continuations.",
  [CH+": normalize", NE+": modify", DS+": modify", TR+": modify", LT+": modify", CR+": modify"])
p("The laws of + and - on tables",
  "Two expressions that join tables with + and - give the same table, whatever the tables and whatever the hash orders, exactly if they are the same single table, or if both apply an operator, an item is in the one exactly if it is in the other (reading + as or, - as and-not), and, unless no item can be in them, the leftmost table of each, if no + stands above it, is the same table or neither has one. A finite test decides this. So for instance (A-B)-C and A-(B+C) are always the same table, while A+A and A, (A+B)-B and A-B are not. The number of copies of each item in the value of every expression is determined too.",
  "all expressions of any size, all tables, all iteration orders",
  "The equality of two expressions is over all tables; the laws are over all expressions.",
  [CO+": Add for Synthesized and the other correspondences", CO+": Sub"])
p("Comparing two pipelines by short texts",
  "Two pipelines of conversions, eliminations, run reductions, dotted-space eliminations, trims, neologdns and non-interfering ligature maps that differ on some text differ on a text of fewer than 2*M*N characters, where M and N are the products of the numbers 1 (conversion, elimination), 2 (reduction), 3 (dotted space, trim), 36 (neologdn) and (1+L)*2^L (ligature map with L characters of keys), made of the characters of the original text; and on one made of the characters the modifiers tell apart and two others. So whether two pipelines are the same, whether a pipeline is idempotent and whether two can be exchanged can be found out with finitely many texts. No length is enough for all pipelines.",
  "all pairs of pipelines of the stated kinds, all texts, all iteration orders",
  "It is the statement that says which finite set of tests is enough; it cannot itself be tested.",
  [CH+": normalize", CC+": modify", CE+": modify", CR+": modify", DS+": modify", TR+": modify", LT+": modify", NE+": modify"])
p("Where a text may be cut",
  "Normalizing two texts separately and joining the results is normalizing the joined text exactly if nothing of the following stands across the cut: for a run reduction, two occurrences of its character; for the dotted-space elimination, two ASCII letters or digits with at least one space and nothing but spaces between them; for the trim, a space next to the cut while both parts have another character; for a ligature map that does not interfere and whose keys never overlap, one of its keys; for neologdn, after its conversion of single characters, two prolonged sound marks, two ASCII letters or digits with nothing but (at least one) spaces between them, or a kana and a sound mark that compose with nothing but spaces and tildes between them; conversions and eliminations may be cut anywhere. If keys overlap themselves, only the absence of a key across the cut is enough. A pipeline may be cut where each of its stages may, and sometimes elsewhere, because a later stage can hide what an earlier one shows.",
  "all pairs of texts; all tables, sets, characters and ligature maps of the stated kinds; all pipelines; all iteration orders",
  "Where an input may be split, e.g. to process it in parallel, is a statement about all pairs of texts; blanks between the characters concerned may be of any length.",
  [CH+": normalize", NE+": modify", DS+": modify", TR+": modify", LT+": modify", CR+": modify", CC+": modify", CE+": modify"])
p("When the order of a hash map shows",
  "For every pipeline, whatever its ligature maps, a text has at most as many results as there are orders of the entries of its ligature maps (the product of the factorials of their sizes), and this number is reached: for every n there are a ligature map of n entries and a text for which all n! orders have different results (real Unicode characters for n up to 27647, numbers standing for characters beyond that); if some text has two results then a text of fewer than 2*M*M characters has, where M is the product of what the modifiers remember (for a ligature map the product of (1+n)*2^n over its keys, n their lengths); whether there is such a text is settled by finitely many texts. Two pipelines with one result for each short text agree on all texts if they agree on the short ones. A ligature map whose entries can be exchanged in pairs has one result for each text, but the converse fails. If the keys have one character each, the map has one result for each text exactly if no value contains the key of another entry, unless that entry replaces its key by itself.",
  "all pipelines with arbitrary ligature maps (also interfering ones and empty keys), all texts, all iteration orders",
  "A test sees the order the process happened to draw; whether some other order would have shown on some other text is a statement over all orders and all texts.",
  [LT+": modify", CH+": normalize"])
p("What the configuration depends on",
  "Whatever else changes in environment and file system, load_rc gives the same outcome (the same modifiers, error or panic) and the command line tool the same output as long as: CHANOMARC has the same value and the file it names is unchanged; or CHANOMARC is unset (or not Unicode) in both, the candidate paths are the same, the same of them are files and those are unchanged. A file counts as unchanged if, read in the format its extension says, it differs at most in the first record of a CSV file or in YAML keys other than items and modifiers. None of these places can be left out: an unreadable file at any one of them, everything else being the same, makes the load fail.",
  "all worlds (file systems, environments), all pairs of worlds that agree on the places named, all arguments and inputs, all iteration orders",
  "That nothing else has an influence is a statement about all pairs of file systems; a test compares two of them.",
  [CF+": load, file_paths, load_file_with_ext, valid_file_path", FI+": table_from_csv_path, table_from_yaml_path, modifiers_from_yaml_path", CH+": load_rc, from_config_file", "src/main.rs: main"])
p("When a normalisation loses nothing",
  "A conversion gives different texts different results exactly if its table exchanges its characters among themselves (every replacement is itself replaced, no two characters have the same replacement); an elimination exactly if it lists no character; run reduction, dotted-space elimination, trimming and neologdn never do, nor does the preset. A pipeline of these loses nothing exactly if none of its stages loses anything, and then another such pipeline undoes it, before or after it; a pipeline of these that any pipeline undoes loses nothing. A single ligature loses nothing only if its key occurs in its value; for keys of at most one character this is also enough, for longer keys it is not, but it is if the value begins with the key, or ends with it and occurrences of the key never share characters (without this it need not be); if the value begins with the key, which is not empty, the ligature with key and value exchanged undoes it (with an empty key it need not); and with ligatures a pipeline may lose nothing although one of its stages does.",
  "all tables, sets, characters, ligatures, pipelines and texts; all iteration orders",
  "That no two texts have the same result is a statement about all pairs of texts.",
  [CC+": modify", CE+": modify", CR+": modify", DS+": modify", TR+": modify", LT+": modify", NE+": modify", CH+": normalize"])
p("Three characters tell pipelines of conversions, eliminations and reductions apart",
  "In a pipeline of character conversions, eliminations and run reductions a character contributes its image, unless it is removed wherever it stands, or some run reduction of the pipeline meets it when its image there is the reduced character, that of an earlier character is too, and all characters between them are already removed. Two such pipelines that differ on a text differ on at most three of its characters (in their order); so they are the same exactly if they agree on the texts of at most three of the characters their tables, sets and reductions name, and idempotence and exchangeability show on texts of three characters. Two characters are not enough, and with trims or dotted-space eliminations beside conversions no fixed length is.",
  "all pipelines of conversions, eliminations and run reductions, of any length; all texts; all iteration orders; for the refutations: every length",
  "That agreement on short texts implies agreement on all is itself a statement over all texts and all pipelines; with it, finitely many tests do suffice.",
  [CC+": modify", CE+": modify", CR+": modify", TR+": modify", DS+": modify", CH+": normalize"])
p("Runs of the tool joined by pipes",
  "If the standard output of one run of the command line tool is the standard input of the next, the next run (with no text argument) does what it would do with the first line of the printed text as its argument: no more, no less, for any number of further runs. A run that ends with a failure status is an empty text for the next, and the message printed when the input cannot be read is itself the text of the next. If the text, and the configured replacements, have no line feed, the possible outputs of two runs are exactly those of the first normalisation followed by the second. For any number of runs without configured modifiers the output is that of the preset if any run asks for it, then neologdn as many times as runs ask for it, but at most twice. The status shown is that of the last run: 101 exactly if the chain ends in a panic, 2 exactly if the last arguments are wrong. What stands behind a line feed is lost even if the second run changes nothing, and the failure of the first run does not show in the status of the last.",
  "all runs and numbers of runs (arguments, environment, files, configuration, iteration orders of each run separately); all texts and bytes on the first standard input",
  "The number of runs, their configurations and the texts are unbounded, and each run has its own hash orders.",
  ["src/main.rs: main", CH+": normalize", CF+": load"])
p("The rows of a CSV configuration file",
  "A CSV configuration file loads exactly if each row below the first has one field only, or no empty field; it then replaces every character by what the last row naming it says (a row names the first characters of all its fields but the last, and writes the first character of its last). Two files do the same to all texts exactly if these targets are the same. Rows added at the end override; two neighbouring rows may be exchanged exactly if they contradict each other only about characters a later row names; a row may be left out exactly if each character it names has the same target without it or is named later; all orders of the rows do the same exactly if no two rows contradict each other. Two files used one after the other are one file with the rows of both exactly if the second file leaves alone what the first writes for a character the second does not name, and treats it like the character itself if it does (which can fail). The fewest rows that say the same are as many as there are characters something else turns into. Applying such a file twice is applying it once exactly if no character it produces is replaced in turn. Another CSV file undoes it exactly if it never makes two characters alike; a file that changes something and can be undone replaces every character it produces. Used again and again the file settles, for all texts after one number of times, exactly if it leads no character back to itself; as many times as it replaces characters are then enough, and no smaller number is for all files.",
  "all CSV files (all rows, of any number and any fields), all texts, all iteration orders, all worlds the files are in",
  "Whether an edit of a file is harmless is a statement about all texts, and the rows are arbitrary; that no shorter file exists is a statement about all files.",
  [CH+": from_config_file", FI+": table_from_csv_path", CC+": from_tables, modify"])
p("Nothing changes places",
  "The result of a pipeline of conversions, eliminations, run reductions, dotted-space eliminations and trims has, in order, what its conversions make of some of the characters of the text that no elimination takes away: the places the characters of the result come from strictly increase. Without conversions, a result with all the characters of the text is the text. Each character of a neologdn result comes from a block of the text, the blocks being disjoint and in order: one character, which is converted, or a kana and a sound mark with nothing but spaces and tildes between them, which are composed; what is in no block is (converted to) a space, a tilde or a prolonged sound mark. Ligature maps can put characters in another order.",
  "all pipelines of these modifiers, of any length; all texts; all iteration orders",
  "All texts and pipelines; where a character of the result comes from is not observable by a single run.",
  [CC+": modify", CE+": modify", CR+": modify", TR+": modify", DS+": modify", NE+": modify", LT+": modify"])
p("YAML items say what CSV rows say",
  "A YAML configuration file with nothing but `items`, whose keys are texts and whose values are texts or lists of texts, is read exactly as the CSV file whose rows below the first have the values and then the key: both load the same modifiers or both panic. It loads exactly if no entry that replaces something has an empty text; a character becomes what the last entry naming it says; two such files do the same exactly if their entries say the same of every character. Whatever a CSV file does, a YAML file with pairwise different keys does. That the order of the entries does not matter, as for YAML mappings, is false even if the keys are pairwise different.",
  "all lists of entries, all texts, all iteration orders, all states of the file system",
  "All files of the two formats are compared, also those that panic; tests compare single files.",
  [FI+": table_from_yaml_path", FI+": table_from_csv_path", CF+": load_file_with_ext"])
with open('/verif/properties.jsonl','w') as f:
    for x in P: f.write(json.dumps(x,ensure_ascii=False)+"\n")
print(len(P))
