# Formal model of icalendar-rs 0.16.11 — design

Source: `/repo` (pinned commit).  Properties: `properties.jsonl`.  Status: `MANIFEST.json`.
Coq 8.16.1, standard library only.

## 1. Shape of the model

| File (`rocq/theories/`) | Models |
|---|---|
| `Str.v` | Rust `char`/`str`: `str := list N` of code points, UTF-8 widths, whitespace, literals, order, std string operations (`replace`, `split`, `contains`, integer printing and parsing) |
| `Fold.v` | `fold_line` (src/properties.rs), `unfold` (src/parser/utils.rs) |
| `Text.v` | `escape_text`, `quote_if_contains_colon`, `unescape_text` |
| `ValueTypes.v` | `src/value_types.rs`, `From<ValueType> for Parameter` |
| `Property.v` | `Property`, its builder and serializer, `Class`, `EventStatus`, `TodoStatus` |
| `Chrono.v` | the parts of chrono, iso8601 and uuid that the crate calls |
| `DateTime.v` | `src/components/date_time.rs` |
| `Component.v` | `src/components.rs`, event/todo/venue/other |
| `Alarm.v` | `src/components/alarm.rs` |
| `Calendar.v` | `src/calendar.rs`, `src/calendar/calendar_component.rs` |
| `Nom.v` | the nom 7 combinators used, over an arbitrary error type |
| `Parser.v` | `src/parser/*.rs` parsers, conversions, zero-copy serializer |
| `ErrorText.v` | the `String` errors of the parsing functions (nom's `convert_error`) |
| `Access.v` | accessors and conversions of properties, triggers and times; feature `chrono-tz` over an arbitrary zone database; `print` |
| `Serde.v` | feature `serde`: JSON values of the parsed types |
| `JsonText.v` | serde_json: `to_string`, `to_string_pretty`, `from_str`; the examples `ical_to_json` and `json_to_ical` |
| `Cost.v` | the parser with a count of the calls of `component` |
| `Search.v` | the parser with a count of the places where `take_until` looks for a line break |
| `FoldCost.v` | `fold_line` with a count of the characters visited by `chars().nth` |
| `ZeroCopy.v` | `ParseString` and the parser with strings that are borrowed, copied or literal |
| `FoldRelease.v` | `fold_line` without overflow checks, as a relation with a count of turns |
| `Writer.v` | the `fmt_write` functions call by call, into any `fmt::Write` |
| `Equal.v` | the derived `PartialEq` (`==`) of properties, components, calendars and of the parsed types |

Specifications used in theorem statements (independent of the model's helpers):
`Spec.v` (folding, escaping, UTF-8), `SpecBuild.v` (histories of builder calls), `SpecDate.v` (real dates,
numerals), `SpecTree.v` (component trees and their text), `SpecCal.v` (calendars, alarms, durations), `SpecDoc.v`
(line grammar), `SpecConv.v` (parsed components to built ones), `SpecRound.v` (what survives a round trip),
`SpecError.v` (error positions), `SpecMore.v`, `SpecAccess.v` (zone databases, triggers, independent calls), `SpecExact.v` (what unsafe
texts become, documents that are kept), `SpecText.v` (the written text), `SpecItems.v` (the texts of single parameters and
properties), `SpecGrammar.v` (the language of the parser), `SpecFold.v` (where lines
are cut; the text of parsed documents), `SpecScan.v` (the texts of dates and times), `SpecSmall.v` (triggers, times
to live, actions), `SpecSerde.v` (JSON values of parsed calendars), `SpecCost.v` (work of the parser),
`SpecGetters.v` (typed getters), `SpecRfc.v` (the grammar of RFC 5545), `SpecFail.v` (lines that cannot be folded), `SpecStack.v` (the entries of errors), `SpecRefold.v` (ways of folding a text), `SpecCut.v` (texts that are cut off), `SpecAlike.v` (equality of components; texts that are read the same), `SpecWriter.v` (lines, calls of `write_str`, writers), `SpecInject.v` (components whose text is theirs alone), `SpecSize.v` (octets and numbers of items), `SpecShape.v` (what any text can be read as), `SpecBack.v` (which properties are read back), `SpecSurvive.v` (and which calendars), `SpecPrecise.v` (exact conditions for claims that hold only sometimes),
`SpecReprint.v` (which parsed calendars come back from their own text),
`SpecWork.v` (which characters folding asks for), `SpecRelease.v` (lines on a machine of 64 bits),
`SpecCopy.v` (where the strings of a parsed calendar come from),
`SpecSharp.v` (physical lines, content lines, what stands before a location in its line),
`SpecEdge.v` (where a text was cut off; documents with a wrong name after END),
`SpecMixed.v` (documents whose lines end in different ways),
`SpecSettle.v` (the order of names in which a text is written again as it was),
`SpecCalls.v` (the parts of a document), `SpecWide.v` (dates of every year),
`SpecSearch.v` (where line breaks are looked for),
`SpecRefused.v` (texts that are refused with a message),
`SpecNest.v` (how deep the parser calls itself),
`SpecTables.v` (where the Unicode tables are looked at),
`SpecJson.v` (the JSON grammar of RFC 8259),
`SpecImport.v` (what the documents of RFC 5545's grammar say, and which are read so), `SpecExport.v` (two documents of
the grammar that say the same, and what becomes of a document that is imported and exported),
`SpecEqual.v` (parameters as maps; properties with one order of parameters), `SpecUser.v` (calendars with the same structure whose properties are related place by place; properties and builder calls that differ in texts only), `SpecDiff.v` (changes of a calendar in one place; texts that differ in whole lines there), `SpecSession.v` (the components and calendars a program can come to have; runs of saving, loading and editing), `SpecNear.v` (documents changed in one place; calendars that differ in what was read there), `SpecMerge.v` (documents and calendars put together).
Tests: `RepoTests.v` (the project's tests on the model).
Lemmas: `*Proofs.v`, `StrFacts.v`, `RoundChecks.v` (decidable versions of the round trip conditions, for examples).
Theorems: `Properties_*.v`, one block per property, with an example that meets the hypotheses and `Print Assumptions`.

Choices:

* **Strings** are lists of Unicode code points.  Byte offsets are computed from the
  UTF-8 width of each code point (`fold_line` mixes byte and character offsets, so both exist).
  Theorems that count octets use an independent UTF-8 encoder.
* **Effects.** Serialization returns `Ret s`, `Panic` or `NoFuel`.  `fold_line`'s loop is
  fuelled; it is proved that `NoFuel` with the fuel used means the loop does not
  terminate with any fuel.  `Utc::now()` and `Uuid::new_v4()` read an arbitrary environment
  through a counter; theorems quantify over it.
* **HashMap** parameters are an association list without duplicate keys whose list order is the
  (arbitrary) iteration order.  **BTreeMap** is a strictly sorted association list.
* **Parsing** follows nom: `IOk rest value | IErr e | IFail e | IFuel`.  Parsers are polymorphic
  in the error type, as in the source; fuel is proved sufficient.
* **Unicode tables.** `char::is_whitespace` is complete.  `is_alphanumeric`/`is_lowercase` are concrete on
  ASCII and an arbitrary function above (class `Unicode`); theorems hold for every such function.

## 2. Plan per property

Statements are in `properties.jsonl`.  "refuted" = the property as stated is false of the code; a
theorem `…_refuted` exhibits a witness and a `…_partial` theorem proves what does hold.

| Id | How |
|---|---|
| C01 | structure theorem C04 + unfold equations; induction on pieces; exactly: each piece is unfolded by itself, and unfolding shortens what has a fold mark |
| C02 | loop invariant on (pos,next_pos,remaining); refuted at 76 octets for the last line; partial: all but last ≤75, last ≤76; exact condition from where the line is cut (SpecFold.v) |
| C03 | refuted (hang and panic witnesses); partial: total if no whitespace, or if non-ASCII runs are ≤71 bytes |
| C04 | loop invariant; the exact condition from the cuts of C83 |
| C05 | equations characterising unfold; induction on length |
| C06 | token-level analysis of the replacement chain; exact iff; refuted witness |
| C07 | induction |
| C08 | same token analysis against a left-to-right RFC decoder; refuted + partial |
| C09 C10 | case analysis over names, all strings |
| C11–C13 | parser run on printed line, induction on parameters; refuted parts for LF and quotes |
| C14 | case analysis of the property parser |
| C15 | document lemma generic in the line terminator; refuted for mixtures; exactly, the derivation of C68 for each mixture |
| C16–C19 | induction on histories of builder calls; sorted-map lemmas |
| C20 C21 | decimal print/parse lemmas |
| C22 | case analysis |
| C23–C27 | chrono format/parse lemmas; refuted outside years 0..9999 and for sub-seconds |
| C28 | induction on component trees |
| C29 | refuted |
| C30–C33 | list lemmas over histories |
| C34 | fuel adequacy by induction on input length |
| C35 C36 C50 C40 | document lemma: induction on trees |
| C37–C39 | refuted with witnesses; positive parts by case analysis |
| C41 C43 | map lemmas; counting the entries of a sorted map |
| C42 | refuted; see C11 for the positive part; exact conditions for a property alone and in a calendar |
| C44 | refuted; partial via document lemma |
| C45 C46 | suffix invariants through all combinators |
| C47–C49 | case analysis, decimal lemmas |
| C53 | equational characterisation of line, column and line text of a suffix; a message determines its columns, hence the exact condition for the caret |
| C54–C59 | case analysis, map lemmas, induction on component trees |
| C60 | for every sensible zone database; refuted where a local time occurs twice; exact condition proved |
| C61–C63 | case analysis, map extensionality, permutations |
| C64 | the tree lemma of C35 without conditions on TEXT; determinism of the garbling relation |
| C65 | refuted in six ways; whatever the document, if what was read has none of these defects it meets the conditions of C35 (by C87) |
| C66 | the written relation of C18 refined to characters; functional relations |
| C67 | every text has a decomposition, and every decomposition is what the parser computes |
| C68 | induction on the fuel (sound) and on the mutual derivations (complete) |
| C69 | induction on the remaining line; invariant of the fold loop |
| C70 | induction on the tree |
| C71 | lemmas per number; greedy digit spans are unique |
| C72 | case analysis; the texts of times from C71 |
| C73 | induction on the number of levels; equivalence of the derived readers with an inductive relation |
| C74 | counting version of the parser, shown to be the parser; potential argument by induction on the nesting and the length; exact count for the family of counterexamples |
| C75 | composition of the exact readings (C20 to C22, C71) with the exact conversion (C41) |
| C76 | determinism of the relation; induction on the checked loop and on the unchecked run; counting down by well-founded induction on `N` |
| C77 | unambiguity by stopping at the first character outside of a class; induction on written trees |
| C78 | one turn of the loop as an equation; induction on the fuel and on the derivations; kinds of outcomes compose along the lists of lines |
| C79 | induction on the fuel (sound) and on the mutual derivations (complete); uniqueness of numerals and positions |
| C80 | exact criterion for when unfolding distributes over concatenation; every text is refolded to the one with a fold after each character |
| C81 | every prefix of every document; the grammar of C68 has no derivation for any of them; exactly: the derivation that gets stuck or fails, for each place of the cut |
| C82 | derived equality of components; equivalence relation; shuffled documents at any depth |
| C83 | the single calls of `write_str`; writers of any state type that fail at any call; partial output before a panic |
| C84 | escaping, quoting and nesting read from left to right; the exact conditions; witnesses of collisions without them |
| C85 | octets of the text counted line by line; the number of cuts; sums over the tree |
| C86 | steps of `chars().nth` counted in FoldCost.v; a family of lines that takes quadratically many; quadratic upper bounds; the work of every line exactly |
| C87 | induction over the exact grammar of C68, then the conversion |
| C88 | octets counted over the exact grammar of C68 and through the conversion; C85 for writing again |
| C89 | line feeds and double quotes counted: what is lost in unfolding or in a wrongly quoted value cannot come back; otherwise the exact grammar of C68 |
| C90 | necessity: what is read has the shape of C87, so the text is one of C64, and what C64 says is read must be what was written; sufficiency: C35 |
| C91 | necessity: double quotes and backslashes are counted along the grammar of C68: reading never finds more than there are, and finds as many only if nothing is unquoted or unescaped; folding and unfolding do not change their number. Sufficiency: the document of C44, with the stamps as further lines |
| C92 | a second parser whose strings are borrowed, copied or literal (ZeroCopy.v), shown equal to that of Parser.v up to the text of the strings, combinator by combinator; an invariant of the rests of the text for the places |
| C93 | the parser with a count of the places where `take_until` looks (Search.v), shown to be the parser; exact counts of documents by induction on the tree; a potential for texts with a CR LF ahead |
| C94 | mutual induction on `comp_fails_with`: the lines of the components around the error are disjoint (a potential of the octets since the last line feed) |
| C95 | mutual induction on `deep`, monotonicity of the fuel (`component f i` is IFuel or what it is with more), induction on documents |
| C96 | a relation between two parsers with different tables, combinator by combinator; induction on components for the writers |
| C97 | the reader is sound by induction on its fuel and complete by mutual induction on the grammar; the writers produce the grammar |
| C98 | to the left: the document is a tree of lines as in C50; to the right: the reading of C68 is followed line by line, parameter by parameter |
| C99 | to the left: C98 (what is read), C10 (the same type on both sides), C66 and C77 (what is written and how it is read); per name of a property by the arrangement of C18 |
| C100 | the derived `==` (`Equal.v`: `HashMap`, `BTreeMap` and `Vec` as std compares them) against `same_cal` (`SpecAlike.v`): sorted maps with related entries (`ksorted_rel`), maps without duplicates and permutations; then C78's order of lines, C90 |
| C101 | `stamp_tree` of related components gives related trees with the same generated stamps and UIDs; `conv_inner` of related trees gives related components; the reading of a property is a function (`reread_fun`) |
| C102 | where `bt_insert` inserts (`insert_place`), the text of a component as a relation (`inner_ret`) that splits at every place, whole lines on both sides |
| C103 | an invariant (`good`, `cal_fine`) proved by mutual induction over the ways to make components and calendars (`session_good`), kept by loading (`loaded_fine`) |
| C104 | an edit of the document at a path (`doc_edit`), its text (`edit_text`) and its meaning (`conv_near`, by induction over the path) |
| C105 | the counter of readings shifts (`inner_later`, `stamp_tree_later`), texts and trees of components concatenate (`inners_split`, `stamp_trees_app`) |

## 3. Trusted base

* **Coq 8.16.1's kernel** (with its `vm_compute` machine) and the compiler that ran it.
* **Assumptions.**  Every theorem listed in `MANIFEST.json` is followed by `Print Assumptions`; each prints
  "Closed under the global context".  There are no axioms in the development.  (`lia` loads standard library
  files that load `Coq.ssr.ssrunder`, whose opaque module fields `Under_rel.*` a listing of the whole library
  context shows; no theorem depends on them.)
* **The model is the code.**  The definitions were written by reading `/repo`; nothing checks mechanically that they
  agree with it, and the code was not run.  Each definition cites the lines it models.  `RepoTests.v` states the
  project's own tests (unit tests, integration tests and fixtures, all that assert something) of the model, and Coq computes that they hold.
* **Dependencies, from their documentation and from memory** (they are not in `/repo`):
  the Rust standard library (`str`, `char`, `String::replace`, `str::split`, `BTreeMap`, `HashMap`,
  integer printing and parsing, `str::is_char_boundary`, slicing panics);
  nom 7 (`Nom.v`: complete string parsers, `alt`, `many0`, `many_till`, `tag`, `tag_no_case`, `is_not`, `context`, `cut`,
  `all_consuming`, the recursion and error accumulation of `VerboseError`, `convert_error`);
  chrono 0.4 (`Chrono.v`: `format`/`parse_from_str` for the three formats used, `from_ymd_opt`, `Display` of durations,
  `Duration::from_std`); uuid 1 (`Display`); serde 1's derived implementations and serde_json 1's
  texts (`JsonText.v`) and limit of 128 levels.
  iso8601 0.6's `duration` is concrete only on the texts the crate itself writes (`P0D`, `PT<n>S`,
  `PT<n>.<f>S`) and on texts not starting with `P`; elsewhere it is an arbitrary function (class `Iso8601`).
* **Arbitrary parameters**: Unicode tables above ASCII (class `Unicode`), the clock and the random source
  (`env`), the order of `HashMap` iteration (the order of the list), the time zone database of chrono-tz (class
  `TzDb`; C60 assumes `tz_ok` of it, an explicit hypothesis).

### Modelled

All of `src/value_types.rs`, `src/properties.rs`, `src/components.rs`, `src/components/{event,todo,venue,other,alarm,
date_time}.rs`, `src/calendar.rs`, `src/calendar/calendar_component.rs`, `src/parser/*.rs` in the default feature set and with `chrono-tz`, except what follows.

### Not modelled

* `src/period.rs`, `src/repeats.rs` (not compiled: commented out in `src/lib.rs`), `src/assert.rs`.
* Feature `serde`: the derived implementations are modelled on JSON values (`Serde.v`), serde_json's texts in `JsonText.v` (a text is read
  as a value first; its error messages are not modelled); other formats are not.
* Ownership: `&mut self` builders are functions.  In `Parser.v` `Cow`/borrowed strings are plain strings and `ParseString::{to_owned,
  into_owned, as_str, as_ref}` and `Display` are the identity; `ZeroCopy.v` keeps what is borrowed and what is copied (C92).  A slice
  is given by the rest of the text where it begins and its length in characters; pointers and lifetimes are not modelled.
* Memory exhaustion and stack overflow: the parser and the serializer recurse once per nesting level, without a bound in the code
  (C95 gives the number of nested calls of the parser for every text, not the bytes they take).
* Panics of a writer itself.  `core::fmt::write` calls `write_str` once per literal piece and argument (`Writer.v`); the theorems
  (C83) only use that the calls for a line together are its text.
* Errors of writing to standard output in `print`; its text is modelled (`Access.v`).
* `usize` overflow in `fold_line` on strings longer than the address space.  Debug and release builds differ at the
  subtraction in `fold_line`; `Fold.v` panics as the debug build does, `FoldRelease.v` wraps as the release build does (C76).
* Deprecated `chrono::Date<Utc>` conversions are the same as those from `NaiveDate`.
* `Repeat::from_str` is `todo!()` in the code.
