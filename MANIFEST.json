{
 "claims": [
  {
   "property": "C01",
   "status": "proved",
   "theorems": [
    "C01_unfold_fold",
    "C01_exact"
   ],
   "note": "for every line on which folding returns and that contains no fold mark. C01_exact gives the condition exactly, without asking that the line has no fold mark: it is unfolded to itself exactly if no piece of it has one."
  },
  {
   "property": "C02",
   "status": "partial",
   "theorems": [
    "C02_octets_refuted",
    "C02_octets_partial",
    "C02_exact",
    "C02_plain"
   ],
   "note": "false as stated: the last physical line can have 76 octets (witness 150 ASCII characters); all others are at most 75. Exactly (C02_exact): all physical lines are within 75 octets if and only if there is one or the last piece has fewer than 75 octets; for ASCII without white space (C02_plain) if and only if the line is shorter than 150 or its length is not 2 modulo 74."
  },
  {
   "property": "C03",
   "status": "partial",
   "theorems": [
    "C03_total_refuted_panic",
    "C03_total_refuted_hang",
    "C03_total_partial"
   ],
   "note": "false as stated: SUMMARY values exist on which serialization panics or loops for ever (byte offset used as character index); total on lines with short non-ASCII runs or sparse white space"
  },
  {
   "property": "C04",
   "status": "partial",
   "theorems": [
    "C04_exact",
    "C04_pieces_refuted",
    "C04_pieces_partial"
   ],
   "note": "pieces, boundaries and order proved for every line; false that only the last piece can be empty (first piece, for lines with non-ASCII white space at the start). Exactly (C04_exact): no piece but the last is empty if and only if the line has at most 75 octets or its first cut is not at its start."
  },
  {
   "property": "C05",
   "status": "proved",
   "theorems": [
    "C05_unfold_exact"
   ],
   "note": "unfold equals the single-pass relation, both directions"
  },
  {
   "property": "C06",
   "status": "partial",
   "theorems": [
    "C06_text_round_trip_refuted",
    "C06_text_round_trip_partial"
   ],
   "note": "false as stated; exact characterisation proved: a text survives iff it has no backslash directly before ':', 'N' or 'n'; C64 gives what the others become"
  },
  {
   "property": "C07",
   "status": "proved",
   "theorems": [
    "C07_escaped_safe"
   ],
   "note": "for every text"
  },
  {
   "property": "C08",
   "status": "partial",
   "theorems": [
    "C08_rfc_decoding_refuted",
    "C08_rfc_decoding_partial"
   ],
   "note": "false as stated; exact characterisation proved: decoded as the RFC says iff no escaped backslash stands directly before an unescaped , ; : N n"
  },
  {
   "property": "C09",
   "status": "proved",
   "theorems": [
    "C09_value_names"
   ],
   "note": "both directions, all fourteen names"
  },
  {
   "property": "C10",
   "status": "proved",
   "theorems": [
    "C10_text_agree",
    "C10_value_type_agree"
   ],
   "note": "same value type and matching escape/unescape decision whenever at most one VALUE parameter is present"
  },
  {
   "property": "C11",
   "status": "partial",
   "theorems": [
    "C11_refuted",
    "C11_round_trip_partial",
    "C11_text_partial"
   ],
   "note": "Refuted for TEXT values with a backslash before n, N or ':'; proved for all other properties (prop_ok), and exactly characterised for TEXT properties. Values that are not TEXT may contain LF if not followed by a blank and no CR LF. C89 is the exact condition; C64 gives what is read back without these conditions."
  },
  {
   "property": "C12",
   "status": "partial",
   "theorems": [
    "C12_refuted",
    "C12_one_line_partial",
    "C12_exact",
    "C12_short"
   ],
   "note": "Refuted: LF in a non-TEXT value (or in a key or parameter) is printed raw. Proved when there is no LF outside TEXT values. Exactly (C12_exact): one content line if and only if in each piece of the folded line every LF has a blank after it."
  },
  {
   "property": "C13",
   "status": "partial",
   "theorems": [
    "C13_refuted",
    "C13_params_partial"
   ],
   "note": "Refuted for values containing a double quote. Proved for all other parameter values, any number of parameters and any order. C89 is the exact condition for a value with double quotes."
  },
  {
   "property": "C14",
   "status": "proved",
   "theorems": [
    "C14_property"
   ],
   "note": "All inputs. Ok or Err always; Err exactly for leading white space followed by END or BEGIN."
  },
  {
   "property": "C15",
   "status": "partial",
   "theorems": [
    "C15_mixed_exact",
    "C15_lf_partial",
    "C15_styles_partial",
    "C15_mixed_refuted"
   ],
   "note": "First half proved for serialized calendars satisfying cal_ok without CR, and without LF outside TEXT values; and for every document in the two uniform styles. Second half (mixed breaks) refuted. Exactly (C15_mixed_exact), for a document whose lines each have their own line breaks: it is read as it says if and only if no CR LF follows after a line with a value that ends in LF."
  },
  {
   "property": "C16",
   "status": "proved",
   "theorems": [
    "C16_last_write_wins",
    "C16_later_calls"
   ],
   "note": "for every history of builder calls, from an empty or any other component"
  },
  {
   "property": "C17",
   "status": "proved",
   "theorems": [
    "C17_multi_order"
   ],
   "note": "for every history of builder calls"
  },
  {
   "property": "C18",
   "status": "proved",
   "theorems": [
    "C18_component_text",
    "C18_insertion_order"
   ],
   "note": "for every component made by builder calls or by parsing, to any depth, whenever serialization returns. C18_insertion_order: sub-components in the order of the calls."
  },
  {
   "property": "C19",
   "status": "proved",
   "theorems": [
    "C19_done"
   ],
   "note": "components, properties and calendars"
  },
  {
   "property": "C20",
   "status": "proved",
   "theorems": [
    "C20_priority"
   ],
   "note": "for every u32 and every stored text"
  },
  {
   "property": "C21",
   "status": "proved",
   "theorems": [
    "C21_integers"
   ],
   "note": "for every u32/u8 and every stored text (numeral = optional plus sign and decimal digits in range, as Rust's parse)"
  },
  {
   "property": "C22",
   "status": "proved",
   "theorems": [
    "C22_words"
   ],
   "note": "all enum values and every stored text"
  },
  {
   "property": "C23",
   "status": "partial",
   "theorems": [
    "C23_timestamps_refuted",
    "C23_timestamps_partial",
    "C23_truncated_partial"
   ],
   "note": "false as stated (years outside 0..9999, parts of a second); exact set of instants that round-trip proved, and what the others become"
  },
  {
   "property": "C24",
   "status": "partial",
   "theorems": [
    "C24_dates_refuted",
    "C24_dates_partial",
    "C24_truncated_partial"
   ],
   "note": "false as stated (years outside 0..9999, parts of a second); exact set proved, and what the others become"
  },
  {
   "property": "C25",
   "status": "proved",
   "theorems": [
    "C25_real_dates",
    "C25_real_timestamps",
    "C25_exact_dates",
    "C25_exact_times"
   ],
   "note": "soundness for every text, exactness on canonical texts"
  },
  {
   "property": "C26",
   "status": "proved",
   "theorems": [
    "C26_day",
    "C26_front",
    "C26_exact"
   ],
   "note": "C26_day: every form with a four-digit year. C26_front: for every year the day is at the front of the text, with a sign where the year is not in 0 to 9999, and no other day has that text. C26_exact: the first eight characters are that day exactly for the years 0 to 9999."
  },
  {
   "property": "C27",
   "status": "partial",
   "theorems": [
    "C27_all_day_refuted",
    "C27_all_day_partial",
    "C27_all_day_text",
    "C27_exact"
   ],
   "note": "false as stated (years outside 0..9999 are not read back); proved for four-digit years; the written properties are proved for every date. Exactly (C27_exact): the day is read back if and only if its year has four digits, and otherwise there is neither start nor end."
  },
  {
   "property": "C28",
   "status": "partial",
   "theorems": [
    "C28_stamped_once_refuted",
    "C28_stamped_once_partial",
    "C28_exact"
   ],
   "note": "False as stated (a multi-property named DTSTAMP or UID is written as well). C28_exact: the number of DTSTAMP and of UID lines is one plus the number of multi-properties of that name, in every component; so each stands once exactly if there is no such multi-property."
  },
  {
   "property": "C29",
   "status": "partial",
   "theorems": [
    "C29_last_modified_refuted"
   ],
   "note": "false: the code writes and reads LAST_MODIFIED"
  },
  {
   "property": "C30",
   "status": "proved",
   "theorems": [
    "C30_container"
   ],
   "note": "for every history of container operations"
  },
  {
   "property": "C31",
   "status": "partial",
   "theorems": [
    "C31_override_refuted",
    "C31_timezone_refuted",
    "C31_lookup_partial",
    "C31_exact"
   ],
   "note": "false as stated: a later setter call does not override, and get_timezone looks for TIMEZONE_ID while timezone() writes TIMEZONE-ID; the rest proved. Exactly (C31_exact): what was set is read back if and only if the getter's first choice is missing or says the same already (for the time zone: TIMEZONE_ID says so, or is missing and X-WR-TIMEZONE is missing or says so)."
  },
  {
   "property": "C32",
   "status": "proved",
   "theorems": [
    "C32_headers",
    "C32_parsed",
    "C32_document"
   ],
   "note": "Headers of built calendars and properties of parsed calendars."
  },
  {
   "property": "C33",
   "status": "partial",
   "theorems": [
    "C33_ttl_refuted",
    "C33_ttl_partial",
    "C33_ttl_exact_partial",
    "C33_ttl_negative_partial",
    "C33_exact",
    "C33_later"
   ],
   "note": "false as stated (negative durations, parts of a millisecond, second call); proved for readable durations on a calendar without REFRESH-INTERVAL, with the exact value read back. Exactly (C33_exact): below 2^32 seconds a duration is read back if and only if it is readable (not negative, whole milliseconds); C33_later: with both properties there already, a further call changes nothing that is read."
  },
  {
   "property": "C34",
   "status": "partial",
   "theorems": [
    "C34_depth_partial",
    "C34_answers",
    "C34_bounded_stack_refuted"
   ],
   "note": "Every entry point answers on every input, with a recursion no deeper than the number of places where begin: stands, and one call (C34_depth_partial). Refuted for a program with a bounded stack: depth grows by one per nine octets of nested BEGIN lines, so a long run of BEGIN lines overflows the Rust stack (an abort, not an Err)."
  },
  {
   "property": "C35",
   "status": "partial",
   "theorems": [
    "C35_refuted",
    "C35_round_trip_partial",
    "C35_same_partial"
   ],
   "note": "Refuted for TEXT values as in C11, and for properties repeated with append_multi_property under names the parser does not treat as multi-valued. Proved for all other calendars (cal_ok), with any nesting, clock and UUIDs. C64 gives what is read back without these conditions."
  },
  {
   "property": "C36",
   "status": "partial",
   "theorems": [
    "C36_refuted",
    "C36_fixed_point_partial",
    "C36_second_round_partial",
    "C36_component_exact",
    "C36_exact"
   ],
   "note": "Refuted for the values of C11; proved for cal_ok calendars: identical text on any clock, and a second-round theorem without the condition on DTSTAMP and UID. Exactly (C36_exact, C36_component_exact), for names and parameters the parser takes: the text is written again if and only if no TEXT value is confused and in every component the names stood in the order in which they are written after reading; generated DTSTAMP and UID count."
  },
  {
   "property": "C37",
   "status": "partial",
   "theorems": [
    "C37_roots_refuted",
    "C37_lost_partial",
    "C37_one_partial"
   ],
   "note": "False of the code: any non-blank text after the first root (a second root included) makes the answer Ok with no component at all, for every document. One root is read."
  },
  {
   "property": "C38",
   "status": "partial",
   "theorems": [
    "C38_refuted",
    "C38_truncated_partial",
    "C38_accounted_partial"
   ],
   "note": "False of the code: a document cut off inside its root, or followed by other text, is Ok and empty. Proved: an answer with a component accounts for the whole text (comp_taken)."
  },
  {
   "property": "C39",
   "status": "partial",
   "theorems": [
    "C39_exact",
    "C39_prefix_refuted",
    "C39_mismatch_partial",
    "C39_closed_partial"
   ],
   "note": "False of the code: the END name is only compared as a prefix (END:VEVENTX closes VEVENT). Proved: any END line whose name does not begin with the open name is an error at any depth, and every accepted component is closed by END and its own name. Exactly, for a component directly inside of a document (C39_exact): END with another name closes it if and only if that name begins with its own and does not go on with END or BEGIN; the rest of the name is then a property of the document."
  },
  {
   "property": "C40",
   "status": "proved",
   "theorems": [
    "C40_keyword_case"
   ],
   "note": "For every document in the sense of C50: keyword case chosen line by line, also blank lines."
  },
  {
   "property": "C41",
   "status": "partial",
   "theorems": [
    "C41_exact",
    "C41_refuted",
    "C41_kept_partial",
    "C41_names_partial"
   ],
   "note": "Refuted for the repeatable names missing from the parser's list (RELATED-TO, REQUEST-STATUS, TZNAME, DESCRIPTION); the rest proved for every parsed component. Exactly (C41_exact): the number of properties stays the same if and only if only names of the parser's list occur more than once."
  },
  {
   "property": "C42",
   "status": "partial",
   "theorems": [
    "C42_exact_partial",
    "C42_refuted",
    "C42_names_partial",
    "C42_calendar_partial",
    "C42_lost_refuted"
   ],
   "note": "Refuted: every name starting with END or BEGIN is printed and rejected. Proved for all other names of letters, digits and dashes: in Property::from_str exactly the names not starting with END or BEGIN come back (C42_exact_partial); inside a calendar end and begin in other case are lost too. C42_calendar_partial makes the last part exact; C42_lost_refuted: a property called begin makes the whole calendar read as an empty one, without an error."
  },
  {
   "property": "C43",
   "status": "proved",
   "theorems": [
    "C43_kinds",
    "C43_printed"
   ],
   "note": "For every parsed component."
  },
  {
   "property": "C44",
   "status": "partial",
   "theorems": [
    "C44_escape_refuted",
    "C44_quote_refuted",
    "C44_faithful_partial"
   ],
   "note": "Refuted (backslash escapes, quoted parameters); proved for parsed calendars whose values need neither (pr_ok, pc_ok)."
  },
  {
   "property": "C45",
   "status": "proved",
   "theorems": [
    "C45_inside"
   ],
   "note": "All locations of the VerboseError and of the simple error, for every entry point; rendering of the message is C53."
  },
  {
   "property": "C46",
   "status": "proved",
   "theorems": [
    "C46_left_to_right"
   ],
   "note": "Every parser, every error type."
  },
  {
   "property": "C47",
   "status": "proved",
   "theorems": [
    "C47_alarm",
    "C47_description",
    "C47_text"
   ],
   "note": "for every history of alarm calls that does not itself set one of the four keys"
  },
  {
   "property": "C48",
   "status": "partial",
   "theorems": [
    "C48_trigger_refuted",
    "C48_trigger_partial",
    "C48_unchanged_partial",
    "C48_exact"
   ],
   "note": "false as stated (before_start/before_end, time zone of absolute triggers); exact result of reading proved for all triggers in the stated ranges. Exactly (C48_exact): the triggers in these ranges that are read back unchanged."
  },
  {
   "property": "C49",
   "status": "proved",
   "theorems": [
    "C49_duration_text",
    "C49_unambiguous"
   ],
   "note": "for every duration; a text denotes at most one duration"
  },
  {
   "property": "C50",
   "status": "proved",
   "theorems": [
    "C50_tree"
   ],
   "note": "Every well-formed tree, both line-break styles, blank lines anywhere. Mixed LF/CRLF in LF documents is excluded (see C15)."
  },
  {
   "property": "C51",
   "status": "proved",
   "theorems": [
    "C51_grammar"
   ],
   "note": "Every accepted input."
  },
  {
   "property": "C52",
   "status": "proved",
   "theorems": [
    "C52_error_types"
   ],
   "note": "Every input; proved relationally over all combinators."
  },
  {
   "property": "C53",
   "status": "partial",
   "theorems": [
    "C53_message_partial",
    "C53_caret_partial",
    "C53_unique_partial",
    "C53_caret_refuted",
    "C53_caret_exact_partial"
   ],
   "note": "exact message proved for every input, with the caret column counted in octets; false that the caret stands under the location in characters (witness with an e-acute), true for ASCII texts. Exactly (C53_caret_exact_partial): the caret is right if and only if the text before each reported location in its line has as many octets as characters."
  },
  {
   "property": "C54",
   "status": "proved",
   "theorems": [
    "C54_set_get",
    "C54_unset",
    "C54_venue"
   ],
   "note": "for every component; eleven fields"
  },
  {
   "property": "C55",
   "status": "partial",
   "theorems": [
    "C55_refuted",
    "C55_tzid_refuted",
    "C55_agree_partial",
    "C55_reads_partial",
    "C55_exact"
   ],
   "note": "false as stated (VALUE=DATE missing, TZID with Z, TZID without value); what conversion reads is read from the parsed property as well, and what is read from the parsed property is characterised completely; C55_exact: the exact condition under which both read the same"
  },
  {
   "property": "C56",
   "status": "partial",
   "theorems": [
    "C56_refuted",
    "C56_components_partial",
    "C56_exact"
   ],
   "note": "false as stated: the properties of the calendar are dropped; the components agree, the properties are always the three defaults. Exactly (C56_exact): the conversions agree if and only if the first root is a VCALENDAR with the three default properties, in order and without parameters."
  },
  {
   "property": "C57",
   "status": "partial",
   "theorems": [
    "C57_refuted",
    "C57_first_partial",
    "C57_agree_partial",
    "C57_exact"
   ],
   "note": "false as stated: find_prop takes the first of repeated properties, conversion keeps the last; multi-valued ones are not found after conversion; C57_exact is the exact condition for agreement"
  },
  {
   "property": "C58",
   "status": "partial",
   "theorems": [
    "C58_types_partial",
    "C58_refuted"
   ],
   "note": "table proved exact for all strings; false that case does not matter"
  },
  {
   "property": "C59",
   "status": "proved",
   "theorems": [
    "C59_fresh_uids"
   ],
   "note": "for every calendar made by builder calls or parsing; hypothesis: the random numbers drawn are 128 bit and pairwise different"
  },
  {
   "property": "C60",
   "status": "partial",
   "theorems": [
    "C60_refuted",
    "C60_unambiguous_partial",
    "C60_never_wrong",
    "C60_other_forms",
    "C60_stored_partial",
    "C60_named",
    "C60_ymd_hm"
   ],
   "note": "For every database that is sensible (tz_ok). Refuted where a local time occurs twice; the exact condition and the rest are proved; storing needs a four-digit year and whole seconds as in C24."
  },
  {
   "property": "C61",
   "status": "proved",
   "theorems": [
    "C61_made",
    "C61_determined",
    "C61_written"
   ],
   "note": "Duration text related to its meaning by the relation denotes (SpecCal)."
  },
  {
   "property": "C62",
   "status": "proved",
   "theorems": [
    "C62_determined",
    "C62_commute",
    "C62_superseded"
   ],
   "note": "Both directions of the characterization."
  },
  {
   "property": "C63",
   "status": "proved",
   "theorems": [
    "C63_set",
    "C63_once",
    "C63_commute",
    "C63_order"
   ],
   "note": "Parameter names without repetition, which C63_once shows for built properties."
  },
  {
   "property": "C64",
   "status": "proved",
   "theorems": [
    "C64_text",
    "C64_property",
    "C64_component",
    "C64_calendar"
   ],
   "note": "Proved for properties, single components and calendars (line_fine, comp_fine, cal_fine), with no condition on TEXT values; garbled is shown to be the reading of a written TEXT in both directions."
  },
  {
   "property": "C65",
   "status": "partial",
   "theorems": [
    "C65_refuted",
    "C65_kept_partial",
    "C65_exact",
    "C65_any_partial",
    "C65_plain_partial",
    "C65_end_refuted",
    "C65_begin_refuted",
    "C65_quote_refuted",
    "C65_mark_refuted",
    "C65_value_refuted"
   ],
   "note": "Refuted: LOCATION:\\\\\\\\: (four backslashes and a colon) is read as backslash-colon, written and then read as a colon. C65_end_refuted, C65_begin_refuted, C65_quote_refuted, C65_mark_refuted and C65_value_refuted: the same for a property called end or begin, an open quote, a line break and blank left by unfolding, and two VALUE parameters. C65_any_partial: for every document the parser accepts at all, if what was read has none of these (prop_quiet), it is kept; C65_plain_partial: in particular every accepted text without backslashes and double quotes and without properties called end or begin. C65_kept_partial: whole documents with RFC escapes, conditions on the text only. C65_exact: accepted documents whose lines stand for themselves (line_tame) are kept exactly if no TEXT value has a backslash directly before ':', 'N' or 'n'. Missing: nothing but the documents for which it is false or that happen to be kept although not quiet."
  },
  {
   "property": "C66",
   "status": "proved",
   "theorems": [
    "C66_characters",
    "C66_classes",
    "C66_line",
    "C66_unique",
    "C66_component",
    "C66_calendar",
    "C66_dates",
    "C66_timestamps",
    "C66_numbers",
    "C66_identifiers",
    "C66_any_year",
    "C66_timestamps_any_year",
    "C66_day_told"
   ],
   "note": "Content lines and whole calendars are specified without model functions (SpecText.v). Which lines cannot be written at all: C03. Years outside 0 to 9999, which have a sign and at least four digits: C66_any_year, C66_timestamps_any_year."
  },
  {
   "property": "C67",
   "status": "proved",
   "theorems": [
    "C67_parameter",
    "C67_property",
    "C67_component",
    "C67_ignored"
   ],
   "note": "Parameters and properties: equivalences for every text. Components: every well-formed component followed by anything but a line break; what other texts are accepted as components is bounded by C38/C39. C67_ignored lists surprising readings."
  },
  {
   "property": "C68",
   "status": "proved",
   "theorems": [
    "C68_components",
    "C68_simple",
    "C68_calendar",
    "C68_component",
    "C68_cases"
   ],
   "note": "Equivalences for every text against an inductive grammar (SpecGrammar.v); C68_cases: the grammar is unambiguous and every text is in exactly one of its three classes."
  },
  {
   "property": "C69",
   "status": "proved",
   "theorems": [
    "C69_exact",
    "C69_ascii",
    "C69_unique"
   ],
   "note": "C69_exact and C69_ascii state the text for every property; C69_unique that the description determines it."
  },
  {
   "property": "C70",
   "status": "proved",
   "theorems": [
    "C70_text",
    "C70_returns"
   ],
   "note": "C70_text determines the text when writing returns, C70_returns when it does."
  },
  {
   "property": "C71",
   "status": "proved",
   "theorems": [
    "C71_dates",
    "C71_local",
    "C71_utc",
    "C71_from_str",
    "C71_property",
    "C71_parsed",
    "C71_errors"
   ],
   "note": "Equivalences for every text against SpecScan.v. chrono's parsing itself is part of the model (Chrono.v), transcribed from its documented behaviour, and is trusted there."
  },
  {
   "property": "C72",
   "status": "proved",
   "theorems": [
    "C72_trigger",
    "C72_ttl",
    "C72_duration",
    "C72_action",
    "C72_native",
    "C72_parts",
    "C72_print",
    "C72_email"
   ],
   "note": "Equivalences against SpecSmall.v; the parser of durations (iso8601) is arbitrary except on the texts named in section 3 of DESIGN.md."
  },
  {
   "property": "C73",
   "status": "partial",
   "theorems": [
    "C73_deep_refuted",
    "C73_kept_partial",
    "C73_text",
    "C73_different",
    "C73_read"
   ],
   "note": "false as stated: serde_json refuses more than 127 levels of arrays and objects, that is components nested 63 deep or more; proved for all others, with the exact condition and the exact set of values read"
  },
  {
   "property": "C74",
   "status": "partial",
   "theorems": [
    "C74_document",
    "C74_same",
    "C74_exponential_refuted",
    "C74_refuted",
    "C74_bound_partial",
    "C74_capitals_partial"
   ],
   "note": "false as stated: k lines begin:b (8 k characters) take 2^k calls, because each component that is never closed is read again as a property; proved for all texts: at most length + 1 calls, doubled for each place where begin: stands in other than capitals Exactly for documents (C74_document): one call for each component and line and one for the end of the text, in whatever case BEGIN is written."
  },
  {
   "property": "C75",
   "status": "proved",
   "theorems": [
    "C75_stored",
    "C75_parsed",
    "C75_access",
    "C75_native"
   ],
   "note": "Composition of the exact readings with the exact conversion; C29 records that get_last_modified asks for LAST_MODIFIED."
  },
  {
   "property": "C76",
   "status": "proved",
   "theorems": [
    "C76_same",
    "C76_property",
    "C76_kept",
    "C76_unchecked",
    "C76_one",
    "C76_counts_down"
   ],
   "note": "The unchecked loop is a relation (FoldRelease.v): it counts the turns of the inner loop and relates a loop without end to nothing."
  },
  {
   "property": "C77",
   "status": "proved",
   "theorems": [
    "C77_unambiguous",
    "C77_text",
    "C77_line",
    "C77_calendar"
   ],
   "note": "SpecRfc.v is the grammar, with characters given by number. A parameter value with commas and without colons and semicolons is written unquoted, so the grammar reads it as a list."
  },
  {
   "property": "C78",
   "status": "proved",
   "theorems": [
    "C78_three",
    "C78_property",
    "C78_for_ever",
    "C78_order",
    "C78_component",
    "C78_calendar",
    "C78_parsed"
   ],
   "note": "SpecFail.v gives the bad lines by the places of cutting (SpecFold.v) and the order of writing."
  },
  {
   "property": "C79",
   "status": "proved",
   "theorems": [
    "C79_entries",
    "C79_simple",
    "C79_messages",
    "C79_one_message"
   ],
   "note": "Combines with C53 (the text of an entry) and C68 (which texts are read)."
  },
  {
   "property": "C80",
   "status": "partial",
   "theorems": [
    "C80_unfold",
    "C80_insert",
    "C80_from_str_partial",
    "C80_refuted",
    "C80_cut"
   ],
   "note": "False as stated: Property::from_str, read_calendar, read_component and read_property do not unfold and lose the rest of a folded value (C80_refuted, C80_cut). Calendar::from_str and CalendarComponent::from_str are invariant, error messages included."
  },
  {
   "property": "C81",
   "status": "partial",
   "theorems": [
    "C81_calendar_partial",
    "C81_component_partial",
    "C81_document_partial",
    "C81_inside",
    "C81_refuted",
    "C81_data_refuted",
    "C81_exact",
    "C81_calendar_exact"
   ],
   "note": "False as stated: a calendar cut off outside of its sub-components may be read as an empty calendar instead of being rejected (C81_refuted), and if a value other than TEXT has a line feed then a prefix can be read as a calendar with part of the data (C81_data_refuted). Proved: with no such line feeds a prefix is rejected or read as the empty calendar; components are always rejected; inside of a sub-component always rejected. Exactly (C81_exact, C81_calendar_exact): rejected if and only if it ends inside of a sub-component after the word BEGIN or in its own last line after the word END, and otherwise empty."
  },
  {
   "property": "C82",
   "status": "proved",
   "theorems": [
    "C82_component",
    "C82_component_text",
    "C82_calendar",
    "C82_calendar_text",
    "C82_shuffled",
    "C82_equivalence"
   ],
   "note": "exact: an equivalence for all pairs of parsed components and calendars, and its consequence for documents with their lines in another order"
  },
  {
   "property": "C83",
   "status": "proved",
   "theorems": [
    "C83_component",
    "C83_calendar",
    "C83_parsed",
    "C83_property",
    "C83_determined",
    "C83_string",
    "C83_component_string",
    "C83_parsed_string",
    "C83_prefix",
    "C83_component_prefix",
    "C83_limited",
    "C83_answers",
    "C83_component_answers"
   ],
   "note": "Proved for components that can be made and for every parsed calendar; the writer is an arbitrary function of its state and the string. The boundaries between the calls within a line are those of the format strings, as far as the text is concerned; see DESIGN.md."
  },
  {
   "property": "C84",
   "status": "partial",
   "theorems": [
    "C84_text",
    "C84_property_partial",
    "C84_component_partial",
    "C84_calendar_partial",
    "C84_same_component_partial",
    "C84_same_calendar_partial",
    "C84_quote_refuted",
    "C84_break_refuted",
    "C84_refuted",
    "C84_component_exact",
    "C84_exact"
   ],
   "note": "Refuted as first stated (C84_refuted, C84_quote_refuted, C84_break_refuted). Proved for names and parameters that the parser takes and values that are not TEXT without CR LF and without a line break before a blank; for equality of whole components also DTSTAMP and UID present and no name used both ways. Exactly (C84_exact, C84_component_exact), with DTSTAMP and UID: two calendars have the same text if and only if they have the same properties and components with the same kind and the same properties in the same order, at every level."
  },
  {
   "property": "C85",
   "status": "proved",
   "theorems": [
    "C85_property",
    "C85_ascii",
    "C85_component",
    "C85_calendar"
   ],
   "note": "All bounds are proved for every value for which the model's writer returns a text; the clock is within chrono's years."
  },
  {
   "property": "C86",
   "status": "partial",
   "theorems": [
    "C86_quadratic_refuted",
    "C86_refuted",
    "C86_bound_partial",
    "C86_ascii_partial",
    "C86_exact"
   ],
   "note": "Refuted: C86_quadratic_refuted gives lines of 151 + 74 k characters that take at least 37 k^2 steps. Proved instead: at most 76 times octets times characters, and for ASCII lines at most the square of the length divided by 73. C86_exact gives the work exactly: the characters asked for are determined by the line (SpecWork.asked) and each costs its distance from the beginning of the line."
  },
  {
   "property": "C87",
   "status": "proved",
   "theorems": [
    "C87_calendar",
    "C87_component",
    "C87_property",
    "C87_parts"
   ],
   "note": "Proved for every text from the exact grammar (C68)."
  },
  {
   "property": "C88",
   "status": "proved",
   "theorems": [
    "C88_calendar",
    "C88_component",
    "C88_property",
    "C88_again"
   ],
   "note": "Proved for every text; the octets and items are those of SpecSize.v."
  },
  {
   "property": "C89",
   "status": "proved",
   "theorems": [
    "C89_parts",
    "C89_exact",
    "C89_same",
    "C89_no_line_feed"
   ],
   "note": "Proved as an equivalence for every property; the parameter names of a property are distinct because they are kept in a map."
  },
  {
   "property": "C90",
   "status": "proved",
   "theorems": [
    "C90_text",
    "C90_component",
    "C90_calendar",
    "C90_same_component",
    "C90_same_calendar",
    "C90_shape"
   ],
   "note": "Proved as an equivalence for this class of calendars; C89 treats the double quotes and line breaks left out here, for one property. The example C90_outside_example shows that outside the class more can be read back."
  },
  {
   "property": "C91",
   "status": "proved",
   "theorems": [
    "C91_property",
    "C91_needed",
    "C91_needed_component",
    "C91_exact",
    "C91_component",
    "C91_stamps"
   ],
   "note": "Proved. The restriction in the last part (pr_tame) is part of the statement; C91_property, without it, is exact for single properties and C91_needed holds for all calendars."
  },
  {
   "property": "C92",
   "status": "proved",
   "theorems": [
    "C92_same",
    "C92_places",
    "C92_octets",
    "C92_plain",
    "C92_owned"
   ],
   "note": "Proved. A slice is given by the rest of the text at its beginning and its length, so its place is part of the result."
  },
  {
   "property": "C93",
   "status": "partial",
   "theorems": [
    "C93_same",
    "C93_document",
    "C93_counted",
    "C93_crlf_document_partial",
    "C93_ahead_partial",
    "C93_ended_partial",
    "C93_bound_partial",
    "C93_lf",
    "C93_quadratic",
    "C93_refuted"
   ],
   "note": "False as stated: C93_refuted, C93_quadratic (a family), C93_lf (every LF document). Proved: the count of every document of either style exactly, the linear bound for CR LF documents, bounds for every text with a CR LF ahead of every colon and for every text."
  },
  {
   "property": "C94",
   "status": "proved",
   "theorems": [
    "C94_size",
    "C94_linear",
    "C94_long"
   ],
   "note": "C94_size is the bound for texts of any length (with the digits of the line numbers), C94_linear for those below 2^63 octets, C94_long a family of long messages. Depends on the model of nom's convert_error (ErrorText.v) and on the exact stacks of C79."
  },
  {
   "property": "C95",
   "status": "proved",
   "theorems": [
    "C95_exact",
    "C95_enough",
    "C95_document",
    "C95_height",
    "C95_bound",
    "C95_tight"
   ],
   "note": "C95_exact is the depth for every text, C95_enough that more room changes nothing, C95_document the depth on documents, C95_height for what is read, C95_bound and C95_tight the greatest depth for a length. The bytes of a stack frame, and so the length of text at which a given stack overflows, are not modelled (C34_bounded_stack_refuted: there is no bound for all texts)."
  },
  {
   "property": "C96",
   "status": "proved",
   "theorems": [
    "C96_write",
    "C96_read",
    "C96_from_str",
    "C96_ascii",
    "C96_exact",
    "C96_parsed"
   ],
   "note": "C96_write: writers and getters; C96_read and C96_from_str: readers with their messages; C96_ascii: ASCII texts; C96_exact: every letter matters; C96_parsed: parsed calendars. The lower-casing in nom's tag_no_case is modelled for ASCII only (no character beyond ASCII has a small letter of BEGIN: or END:, see tag_no_case in Nom.v)."
  },
  {
   "property": "C97",
   "status": "proved",
   "theorems": [
    "C97_json",
    "C97_one",
    "C97_written",
    "C97_layout",
    "C97_read",
    "C97_round",
    "C97_different",
    "C97_printed",
    "C97_examples"
   ],
   "note": "serde_json's text level is modelled in JsonText.v from its documentation (the library is not in /repo); C97_json proves that reader exactly RFC 8259's grammar (SpecJson.v). Simplified: a text is read as a value first, so unpaired surrogate escapes are refused in ignored fields too."
  },
  {
   "property": "C98",
   "status": "partial",
   "theorems": [
    "C98_exact",
    "C98_calendar_exact",
    "C98_stream",
    "C98_refuted",
    "C98_merged_refuted"
   ],
   "note": "False of the code: C98_refuted (two quoted values as in RFC 5545 section 3.2.11 make the document fail or the calendar empty; a name starting with END; an escaped backslash before n) and C98_merged_refuted (a quoted value with a comma is read like two values). C98_exact and C98_calendar_exact say for every document of the grammar exactly when it is read as it says. C98_stream: two documents one after the other are read as an empty calendar."
  },
  {
   "property": "C99",
   "status": "partial",
   "theorems": [
    "C99_exact",
    "C99_texts",
    "C99_refuted"
   ],
   "note": "False of the code: C99_refuted (CATEGORIES:A,B comes back as one category with a comma; a quoted parameter value with a comma as two values; of two TZNAME lines only the last; a value of an unknown VALUE type with escapes). C99_exact says for every document what comes back (calendar_close) and that it says the same if and only if calendar_single holds. Documents that are not read as they say are C98's; that writing returns is C78's."
  },
  {
   "property": "C100",
   "status": "proved",
   "theorems": [
    "C100_property",
    "C100_component",
    "C100_calendar",
    "C100_equivalence",
    "C100_getters",
    "C100_lines",
    "C100_text",
    "C100_order",
    "C100_read_back",
    "C100_parsed"
   ],
   "note": "C100_property, C100_component, C100_calendar and C100_parsed decide == of each type; C100_equivalence, C100_getters, C100_lines and C100_text are what follows for equal values. C100_order: with two parameters one of two equal calendars can be written while writing the other panics (the folding of C78), so the condition of C100_text is needed. C100_read_back: the round-trip assertion of the tests holds exactly for the calendars of C90. params_once: parameters are a map (C63)."
  },
  {
   "property": "C101",
   "status": "proved",
   "theorems": [
    "C101_confined",
    "C101_places",
    "C101_values",
    "C101_calls",
    "C101_setters",
    "C101_others"
   ],
   "note": "C101_confined is the statement; C101_places is more general (any relation between the properties of the two calendars that leaves names, parameters and non-TEXT values alone is kept, place by place). C101_values: values of any type and even parameters, if the parser takes the lines of both calendars. C101_calls and C101_setters: builder calls that differ in texts give such calendars. C101_others shows that the restriction to TEXT is needed. Conditions: names and parameters the parser takes, non-TEXT values without line breaks (cal_fine, C64), and that both calendars can be written (C78)."
  },
  {
   "property": "C102",
   "status": "proved",
   "theorems": [
    "C102_calendar",
    "C102_component",
    "C102_push",
    "C102_setters",
    "C102_uid"
   ],
   "note": "C102_calendar and C102_component are the statement for calendars and components, C102_push for pushed components; C102_setters: every setter of one property is such a change. C102_uid shows why UID and DTSTAMP are excepted when they are set for the first time. The texts of the changed lines are those of prop_write (C66)."
  },
  {
   "property": "C103",
   "status": "proved",
   "theorems": [
    "C103_loads",
    "C103_component",
    "C103_invariant",
    "C103_import",
    "C103_plain_import",
    "C103_runs",
    "C103_needed"
   ],
   "note": "C103_invariant is the invariant of all reachable components and calendars, C103_loads the statement, C103_runs unrolls it along a run, C103_component is for components saved alone. C103_import and C103_plain_import say which documents may be imported. C103_needed: without the conditions on values that are not TEXT (URL, name, time zone) what was saved may not be loadable. Saving itself can panic or hang on some lines (C78); the statement is about what was saved."
  },
  {
   "property": "C104",
   "status": "proved",
   "theorems": [
    "C104_documents",
    "C104_text",
    "C104_others",
    "C104_other_components",
    "C104_mixed"
   ],
   "note": "C104_documents is the statement for any two texts of the two documents, C104_text the same as an edit of the text. C104_others and C104_other_components spell out what stays. C104_mixed: a single CR LF in a document with LF line ends is not a local change, the value of an earlier line runs on up to it."
  },
  {
   "property": "C105",
   "status": "proved",
   "theorems": [
    "C105_ways",
    "C105_text",
    "C105_stamped_text",
    "C105_loads",
    "C105_stamped_loads",
    "C105_session",
    "C105_documents",
    "C105_document_text",
    "C105_needed"
   ],
   "note": "C105_text and C105_loads hold for all components, with the clock and random numbers going on where the first calendar stopped, that is after one reading for each DTSTAMP and UID it lacks (`cal_missing`); C105_stamped_text, C105_stamped_loads and C105_session are for components with DTSTAMP and UID, at any times; C105_needed shows that the difference is needed. C105_documents and C105_document_text are for documents not written by this library; C105_ways says that append, extend and push agree."
  }
 ]
}