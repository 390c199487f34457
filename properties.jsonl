{"id": "C01", "title": "Folding is undone by unfolding", "statement": "Whenever serialization folds a content line that itself contains no fold sequence (a line feed followed by a space or tab), parser::unfold applied to the folded text gives back exactly the original content line, character for character.", "quantifier": "every content line (any Unicode text of any length) for which folding returns", "why_tests_cant": "The fold position depends on byte offsets, character offsets, character widths and whitespace at every multiple of ~74 bytes; the input space is unbounded.", "anchors": ["src/properties.rs::fold_line", "src/parser/utils.rs::unfold"]}
{"id": "C02", "title": "Physical lines stay within 75 octets", "statement": "Every physical line produced by folding (the text between two CRLF-space breaks, including the leading space of a continuation line, excluding the line break) is at most 75 octets long when encoded as UTF-8.", "quantifier": "every content line of any length and any characters", "why_tests_cant": "Only lines of particular byte lengths modulo 74 exhibit the boundary; no finite sample covers all lengths and widths.", "anchors": ["src/properties.rs::fold_line"]}
{"id": "C03", "title": "Folding always returns", "statement": "Serializing any property terminates and does not panic, whatever Unicode text its value holds.", "quantifier": "every content line", "why_tests_cant": "Needs a termination argument over all strings: a test cannot show that no string hangs.", "anchors": ["src/properties.rs::fold_line", "src/properties.rs::Property::fmt_write"]}
{"id": "C04", "title": "Folding neither splits nor loses a character", "statement": "The folded form of a line is the line cut into consecutive pieces at character boundaries, with CR LF SPACE inserted between the pieces and nothing else changed, and no piece but the last is empty.", "quantifier": "every content line for which folding returns", "why_tests_cant": "Quantifies over every mix of 1- to 4-byte characters at every offset.", "anchors": ["src/properties.rs::fold_line"]}
{"id": "C05", "title": "Unfolding removes exactly the fold sequences", "statement": "parser::unfold deletes each occurrence of (CR)LF followed by one space or tab, in one left-to-right pass, and leaves every other character in place and in order.", "quantifier": "every input string", "why_tests_cant": "The implementation is four successive splits; equivalence with a single pass must hold for every interleaving of CR, LF, space and tab.", "anchors": ["src/parser/utils.rs::unfold"]}
{"id": "C06", "title": "Text escaping round-trips", "statement": "A TEXT value written by the serializer and read back by the parser is the same text (parse of the escaped form equals the original), for all texts.", "quantifier": "every Unicode string used as a TEXT value", "why_tests_cant": "The decoder is a chain of global replacements whose interaction depends on runs of backslashes of any length.", "anchors": ["src/properties.rs::Property::escape_text", "src/parser/parsed_string.rs::ParseString::unescape_text"]}
{"id": "C07", "title": "Escaped text cannot break out of its line", "statement": "The escaped form of a TEXT value contains no line feed, and every comma, semicolon and backslash of the text appears preceded by an escaping backslash, so a TEXT value cannot start a new content line or a new list item.", "quantifier": "every Unicode string", "why_tests_cant": "Injection safety is a for-all claim about hostile values.", "anchors": ["src/properties.rs::Property::escape_text"]}
{"id": "C08", "title": "Reading TEXT follows the RFC 5545 escape grammar", "statement": "For wire text in which every backslash starts one of the escapes \\\\ \\, \\; \\N \\n, the parsed value is the left-to-right decoding of those escapes as RFC 5545 section 3.3.11 defines it.", "quantifier": "every well-escaped wire text", "why_tests_cant": "Order of global replacements matters only for particular adjacent escapes; all adjacency patterns must be covered.", "anchors": ["src/parser/parsed_string.rs::ParseString::unescape_text"]}
{"id": "C09", "title": "VALUE parameter names are exact inverses", "statement": "Turning a value type into a VALUE parameter and reading it back gives the same type; a string is accepted as a value type only if it is exactly one of the fourteen registered names; a parameter not called VALUE is never accepted.", "quantifier": "every value type and every string", "why_tests_cant": "Rejection must hold for every other string.", "anchors": ["src/value_types.rs::ValueType::from_str", "src/properties.rs::From<ValueType> for Parameter", "src/value_types.rs::TryFrom<Parameter>"]}
{"id": "C10", "title": "Reader and writer agree on what is TEXT", "statement": "The value type the parser uses to decide whether to unescape a property and the value type the serializer uses to decide whether to escape the same property coincide, whenever the property has at most one VALUE parameter.", "quantifier": "every property name, value and parameter list", "why_tests_cant": "Depends on name table, VALUE parameter and fall-back for unknown types, for every name.", "anchors": ["src/parser/properties.rs::determin_value_type", "src/properties.rs::Property::value_type", "src/value_types.rs::ValueType::by_name"]}
{"id": "C11", "title": "A property survives print and parse", "statement": "A property whose key and parameter names use the parser's key alphabet, whose key does not collide with BEGIN/END, whose parameter values have no double quote or line break, and whose value is line-feed free (or TEXT), when printed, unfolded and parsed as a Property, gives the same key, value and parameters.", "quantifier": "every such property, any parameter order (HashMap iteration order), any lengths", "why_tests_cant": "Covers unbounded values, any number of parameters and every iteration order.", "anchors": ["src/properties.rs::Property::fmt_write", "src/parser/properties.rs::property", "src/parser/parameters.rs::parameters"]}
{"id": "C12", "title": "A printed property is one logical line", "statement": "After unfolding, the printed form of a property contains exactly one line break, at its end.", "quantifier": "every property", "why_tests_cant": "Must hold for hostile values.", "anchors": ["src/properties.rs::Property::fmt_write", "src/properties.rs::fold_line"]}
{"id": "C13", "title": "Parameter values with reserved characters are protected", "statement": "A parameter value containing colons, semicolons or commas is read back unchanged; it never terminates the parameter list early.", "quantifier": "every parameter value", "why_tests_cant": "All positions and combinations of reserved characters.", "anchors": ["src/properties.rs::Property::quote_if_contains_colon", "src/parser/parameters.rs::pair_parameter"]}
{"id": "C14", "title": "Parsing a property fails only for BEGIN/END", "statement": "Parsing any string as a Property yields a property or an error, never a panic or hang, and it is an error exactly when the text after leading whitespace starts with END or BEGIN.", "quantifier": "every input string", "why_tests_cant": "Totality over all strings.", "anchors": ["src/parser/properties.rs::property", "src/parser/utils.rs::property_key"]}
{"id": "C15", "title": "LF and CRLF documents parse alike", "statement": "A serialized calendar whose CRLF line breaks are all replaced by LF parses to the same calendar; and each content line is terminated by its own line break, whatever mix of LF and CRLF a document uses.", "quantifier": "every serialized calendar; every document", "why_tests_cant": "All documents and all mixtures of terminators.", "anchors": ["src/parser/properties.rs::property", "src/parser/utils.rs::line_separated"]}
{"id": "C16", "title": "Last write wins, other keys untouched", "statement": "After any sequence of builder calls on a component, property_value(key) is the value given by the last call that set that key, and None if no call did; calls for other keys do not affect it.", "quantifier": "every history of property-setting calls, every key", "why_tests_cant": "History property: all interleavings of setters.", "anchors": ["src/components.rs::component_impl::append_property", "src/components.rs::Component::property_value"]}
{"id": "C17", "title": "Multi-properties accumulate in order", "statement": "multi_properties()[key] lists all the properties appended under that key, in the order they were appended, after any sequence of builder calls, and has no entry for a key never appended.", "quantifier": "every history of append_multi_property calls", "why_tests_cant": "History property.", "anchors": ["src/components.rs::InnerComponent::insert_multi"]}
{"id": "C18", "title": "A component prints each property once, in key order", "statement": "The serialized component starts with BEGIN:kind and ends with END:kind and between them prints, in ascending key order and exactly once, each single property, then the multi properties grouped by key in ascending order, then the sub-components in insertion order.", "quantifier": "every component built by any history", "why_tests_cant": "Every map content and history.", "anchors": ["src/components.rs::Component::fmt_write"]}
{"id": "C19", "title": "done() moves everything out", "statement": "done() returns a component (calendar, property) equal to what was built and leaves the builder empty.", "quantifier": "every builder state", "why_tests_cant": "All states.", "anchors": ["src/components.rs::InnerComponent::done", "src/calendar.rs::Calendar::done", "src/properties.rs::Property::done"]}
{"id": "C20", "title": "Priority is clamped to 0..10", "statement": "After priority(n), get_priority() is Some(min(n,10)) for every u32 n, and get_priority never returns a value above 10 whatever string the property holds.", "quantifier": "every u32, every property text", "why_tests_cant": "4 billion values and every string.", "anchors": ["src/components.rs::Component::priority", "src/components.rs::Component::get_priority"]}
{"id": "C21", "title": "Integer properties round-trip", "statement": "sequence(n)/get_sequence and percent_complete(n)/get_percent_complete return the number that was set, for every u32 / u8, and return None rather than a wrong number when the stored text is not a decimal in range.", "quantifier": "every u32/u8; every stored text", "why_tests_cant": "Decimal printing and parsing for all values; all strings for rejection.", "anchors": ["src/components.rs::Component::get_sequence", "src/components/todo.rs::Todo::get_percent_complete"]}
{"id": "C22", "title": "Status and class round-trip", "statement": "get_status/get_class return exactly the status/class that was last set on an Event or Todo, and None for any stored text that is not one of the registered words.", "quantifier": "every enum value, every stored text", "why_tests_cant": "Rejection quantifies over all strings.", "anchors": ["src/properties.rs::Class", "src/properties.rs::EventStatus", "src/properties.rs::TodoStatus"]}
{"id": "C23", "title": "UTC timestamps round-trip", "statement": "timestamp/created/last_modified/completed followed by the matching getter returns the same UTC instant.", "quantifier": "every DateTime<Utc>", "why_tests_cant": "Whole range of dates and times.", "anchors": ["src/components/date_time.rs::format_utc_date_time", "src/components/date_time.rs::parse_utc_date_time", "src/components.rs::Component::timestamp"]}
{"id": "C24", "title": "Start, end and due round-trip in every form", "statement": "starts/ends/due followed by get_start/get_end/get_due returns the same date, floating date-time, UTC date-time or date-time with time zone id, keeping the form.", "quantifier": "every DatePerhapsTime", "why_tests_cant": "Whole date range and all time-zone ids, including ones that look like other forms.", "anchors": ["src/components/date_time.rs::DatePerhapsTime::from_property", "src/components/date_time.rs::DatePerhapsTime::to_property", "src/components/date_time.rs::CalendarDateTime::from_property"]}
{"id": "C25", "title": "Date readers only produce real dates", "statement": "Any date or date-time obtained from a property is a valid proleptic Gregorian date and a time with hour<24, minute<60, second<=60, and a text that denotes no such date yields None/Err.", "quantifier": "every property value text", "why_tests_cant": "All strings.", "anchors": ["src/components/date_time.rs::DatePerhapsTime::from_property", "src/components/date_time.rs::parse_utc_date_time"]}
{"id": "C26", "title": "date_naive keeps the calendar day", "statement": "date_naive() and conversion to NaiveDate return the day that is printed at the front of the property text, whatever the form; no other day is printed so. For the years 0 to 9999, and only for these, it is the first eight characters read as a date.", "quantifier": "every DatePerhapsTime", "why_tests_cant": "All dates and forms.", "anchors": ["src/components/date_time.rs::DatePerhapsTime::date_naive"]}
{"id": "C27", "title": "all_day sets start and end to the same DATE", "statement": "After all_day(d), get_start and get_end are both the date d (VALUE=DATE), and no other property changed.", "quantifier": "every date, every prior component state", "why_tests_cant": "All dates and states.", "anchors": ["src/components.rs::EventLike::all_day"]}
{"id": "C28", "title": "Every printed component carries DTSTAMP and UID once", "statement": "The serialized form of every component and sub-component has exactly one DTSTAMP and exactly one UID property line: the one that was set, or a generated one if none was.", "quantifier": "every component tree, every clock and UUID source", "why_tests_cant": "All trees and all environment values.", "anchors": ["src/components.rs::Component::fmt_write"]}
{"id": "C29", "title": "Last-modified is readable from and written as the RFC property", "statement": "last_modified() writes, and get_last_modified() reads, the RFC 5545 LAST-MODIFIED property, so that the getter returns the LAST-MODIFIED of any parsed component.", "quantifier": "every component", "why_tests_cant": "Every stored value.", "anchors": ["src/components.rs::Component::last_modified", "src/components.rs::Component::get_last_modified"]}
{"id": "C30", "title": "Calendar is a sequence container", "statement": "push, add, extend, append, From and FromIterator keep the components in insertion order with no loss or duplication; append leaves the other calendar without components.", "quantifier": "every history of container operations", "why_tests_cant": "History property.", "anchors": ["src/calendar.rs::Calendar::push", "src/calendar.rs::Calendar::extend", "src/calendar.rs::Calendar::append"]}
{"id": "C31", "title": "Calendar property lookup", "statement": "property_value(key) is the value of the first property with that key; append_property never changes the result for a key already present; name/description/timezone getters return what was set on a calendar that had none, and the alternative X-WR- property if only that is present; a later call of the setter overrides the earlier one.", "quantifier": "every property list and history of setter calls", "why_tests_cant": "History property.", "anchors": ["src/calendar.rs::Calendar::property_value", "src/calendar.rs::Calendar::name", "src/calendar.rs::Calendar::get_timezone"]}
{"id": "C32", "title": "Default and parsed calendar headers", "statement": "new/default/from/collect calendars contain VERSION:2.0, PRODID and CALSCALE exactly once each; empty() has none; a parsed calendar has exactly the properties in the text.", "quantifier": "every calendar construction; every parsed text", "why_tests_cant": "All inputs.", "anchors": ["src/calendar.rs::Calendar::default", "src/parser/calendar.rs::From<Calendar> for crate::Calendar"]}
{"id": "C33", "title": "Time-to-live round-trips", "statement": "ttl(d) followed by get_ttl() returns d.", "quantifier": "every duration", "why_tests_cant": "All durations.", "anchors": ["src/calendar.rs::Calendar::ttl", "src/calendar.rs::Calendar::get_ttl"]}
{"id": "C34", "title": "The parser terminates on every input", "statement": "read_calendar, read_components, read_calendar_simple, Calendar::from_str and CalendarComponent::from_str return Ok or Err on every string: no hang and no panic.", "quantifier": "every input string", "why_tests_cant": "Termination for all strings, including adversarial nesting and empty matches.", "anchors": ["src/parser/mod.rs::read_calendar", "src/parser/components.rs::component", "src/parser/components.rs::components"]}
{"id": "C35", "title": "A calendar survives print and parse", "statement": "Calendar::from_str(calendar.to_string()) is Ok and equals the calendar, up to the DTSTAMP and UID that serialization adds to components lacking them, for every calendar built from well-formed keys, parameters and values whose serialization returns.", "quantifier": "every well-formed calendar (any number and nesting of components, any values), any HashMap order, any clock/UUID", "why_tests_cant": "Unbounded tree-shaped inputs.", "anchors": ["src/calendar.rs::Calendar::fmt_write", "src/parser/calendar.rs::FromStr for crate::Calendar", "src/parser/components.rs::component"]}
{"id": "C36", "title": "Serialization is a fixed point after one round", "statement": "If every component has DTSTAMP and UID, printing, parsing and printing again gives the identical text (for the same parameter order).", "quantifier": "every well-formed calendar", "why_tests_cant": "Unbounded inputs.", "anchors": ["src/calendar.rs::Calendar::fmt_write", "src/parser/calendar.rs::FromStr for crate::Calendar"]}
{"id": "C37", "title": "Multiple roots", "statement": "A document consisting of several root components is read as all of these components, in order.", "quantifier": "every document with more than one root", "why_tests_cant": "All documents.", "anchors": ["src/parser/components.rs::components", "src/parser/mod.rs::read_components"]}
{"id": "C38", "title": "A successful parse does not silently drop content", "statement": "If read_calendar returns Ok on a non-blank document, the document's component is represented in the result; malformed input is reported as Err.", "quantifier": "every input string", "why_tests_cant": "All malformed inputs.", "anchors": ["src/parser/components.rs::components", "src/parser/mod.rs::read_calendar"]}
{"id": "C39", "title": "BEGIN and END names match", "statement": "A component is accepted only if its END line names the component that BEGIN opened; otherwise parsing is an error.", "quantifier": "every document", "why_tests_cant": "All names.", "anchors": ["src/parser/components.rs::component"]}
{"id": "C40", "title": "BEGIN and END keywords are case-insensitive", "statement": "Changing the letter case of the BEGIN:/END: keywords of a serialized component does not change the parse result.", "quantifier": "every serialized component and every per-line choice of case", "why_tests_cant": "All combinations.", "anchors": ["src/parser/utils.rs::line"]}
{"id": "C41", "title": "Conversion of parsed components keeps the data", "statement": "Converting a parsed component keeps every multi-valued property in order, the last value of every single-valued property, and all sub-components in order; no property of a kind RFC 5545 allows to repeat is dropped.", "quantifier": "every parsed component", "why_tests_cant": "All property lists.", "anchors": ["src/parser/components.rs::From<Component> for InnerComponent", "src/parser/properties.rs::MULTIS"]}
{"id": "C42", "title": "Any property name in the key alphabet can be read back", "statement": "A property with any non-empty key of letters, digits and dashes can be printed and parsed back.", "quantifier": "every key", "why_tests_cant": "All keys.", "anchors": ["src/parser/utils.rs::property_key"]}
{"id": "C43", "title": "Component kinds map to typed components", "statement": "Parsing a VEVENT/VTODO/VVENUE gives an Event/Todo/Venue, any other name an untyped component with that name, all with the same content; and printing it gives BEGIN/END lines with the same name.", "quantifier": "every parsed component", "why_tests_cant": "All names.", "anchors": ["src/parser/components.rs::From<Component> for CalendarComponent"]}
{"id": "C44", "title": "Zero-copy re-serialization is faithful", "statement": "Printing a parsed parser::Calendar gives a document that parses to the same parser::Calendar.", "quantifier": "every parsed document", "why_tests_cant": "All documents.", "anchors": ["src/parser/calendar.rs::Display for Calendar", "src/parser/components.rs::LikeComponent::fmt_write", "src/parser/properties.rs::Property::fmt_write"]}
{"id": "C45", "title": "Parse errors point into the input", "statement": "Every location in an error is a suffix of the (unfolded) input, so the line and column in the message exist in it.", "quantifier": "every rejected input", "why_tests_cant": "All inputs.", "anchors": ["src/parser/mod.rs::read_calendar", "src/parser/properties.rs::property"]}
{"id": "C46", "title": "The parser consumes left to right", "statement": "Every parser entry point leaves as unread rest a suffix of its input, never re-reading or inventing characters, and parsed keys and component names use only the key alphabet.", "quantifier": "every input string", "why_tests_cant": "All inputs.", "anchors": ["src/parser/components.rs::component", "src/parser/properties.rs::property"]}
{"id": "C47", "title": "Alarms always have ACTION and TRIGGER", "statement": "Alarm::audio/display and duration_and_repeat produce an alarm with exactly one ACTION and TRIGGER (and DESCRIPTION for display), and DURATION present exactly when REPEAT is.", "quantifier": "every trigger, description, duration and repeat count", "why_tests_cant": "All arguments.", "anchors": ["src/components/alarm.rs::Alarm::audio", "src/components/alarm.rs::Alarm::display", "src/components/alarm.rs::Alarm::duration_and_repeat"]}
{"id": "C48", "title": "Triggers round-trip", "statement": "Converting a Trigger to a property and back gives the same trigger: relative (before/after start/end) and absolute.", "quantifier": "every trigger", "why_tests_cant": "All durations, dates and forms.", "anchors": ["src/components/alarm.rs::TryFrom<&Property> for Trigger", "src/components/alarm.rs::From<Trigger> for Property"]}
{"id": "C49", "title": "Duration text denotes the duration", "statement": "The DURATION text written for a duration denotes, read by ISO 8601 rules, the same number of seconds and nanoseconds with the same sign.", "quantifier": "every chrono::Duration", "why_tests_cant": "All durations.", "anchors": ["src/properties.rs::From<chrono::Duration> for Property"]}
{"id": "C50", "title": "A parsed component tree mirrors the BEGIN/END nesting", "statement": "For any well-formed tree printed line by line (with LF or CRLF, blank lines allowed between lines), the parser returns exactly that tree: properties in order, sub-components in order, same nesting.", "quantifier": "every well-formed tree, every placement of blank lines", "why_tests_cant": "Unbounded trees.", "anchors": ["src/parser/components.rs::component"]}
{"id": "C51", "title": "Accepted texts follow the line grammar", "statement": "If read_components returns a component, the whole input is the text of that component in the line grammar: BEGIN with its name, each property line read as itself (white space, name, parameters, colon, value up to its line break), each sub-component in the same way, END with the same name, and nothing but line breaks in between.", "quantifier": "every input string that is accepted, any nesting", "why_tests_cant": "The claim is about every accepted input, including inputs nobody thought of; a parser that skips characters in some corner passes all tests that do not contain that corner.", "anchors": ["src/parser/components.rs::component", "src/parser/properties.rs::property", "src/parser/parameters.rs::parameters"]}
{"id": "C52", "title": "The error type does not change what is parsed", "statement": "read_calendar_simple and read_components (read_calendar) accept the same inputs with the same components; when they reject, the location and kind in the simple error are those of the innermost entry of the verbose error.", "quantifier": "every input string", "why_tests_cant": "The parsers are generic in the error type; that no combinator lets the error type influence the result has to hold for every input and every path of backtracking.", "anchors": ["src/parser/mod.rs::read_calendar_simple", "src/parser/mod.rs::read_components"]}
{"id": "C53", "title": "Error messages point at the error", "statement": "Every function with String errors (read_calendar, read_components, Component/Property/Parameter::try_from, Calendar/CalendarComponent/Property::from_str) fails exactly when the structured parser fails, and the message lists every entry of the structured error from the innermost outwards with its number, the number of the line the error location is in, that line, and a caret under the location.", "quantifier": "every input string on which the parser fails", "why_tests_cant": "The location is computed by pointer arithmetic from the rest of the input; it has to be right for every input, every line and every nesting of errors.", "anchors": ["src/parser/mod.rs::read_calendar", "src/parser/mod.rs::read_components", "src/parser/components.rs::Component::try_from", "src/parser/properties.rs::Property::try_from", "src/parser/parameters.rs::Parameter::try_from"]}
{"id": "C54", "title": "Text fields are independent", "statement": "Every text setter (summary, description, location, url, uid and the venue address fields) stores its text under its own property name without parameters; the corresponding getter returns exactly that text whatever else is set before or after, no other getter is affected, and an empty component has none of them. The location set with venue is read back with its venue identifier.", "quantifier": "every component, every text, every pair of fields", "why_tests_cant": "Eleven setters and getters that differ only in a string constant; a wrong constant shows only for the pair of fields that collide.", "anchors": ["src/components.rs::Component::summary", "src/components.rs::Component::get_summary", "src/components/venue.rs"]}
{"id": "C55", "title": "Dates read the same from parsed and converted properties", "statement": "DatePerhapsTime::try_from(&parser::Property) and DatePerhapsTime::from_property after conversion to a crate::Property read the same date or time.", "quantifier": "every parsed property", "why_tests_cant": "The two functions decide between date, UTC, local and zoned time by different tests in a different order; agreement is needed for every combination of text and parameters.", "anchors": ["src/components/date_time.rs::TryFrom<&parser::Property> for DatePerhapsTime", "src/components/date_time.rs::DatePerhapsTime::from_property"]}
{"id": "C56", "title": "Calendar::from(Vec<Component>) agrees with the calendar type", "statement": "Converting a list of parsed components directly to a crate::Calendar gives the same calendar as going through parser::Calendar.", "quantifier": "every list of parsed components", "why_tests_cant": "Two conversions written separately; agreement for arbitrary lists of roots.", "anchors": ["src/parser/calendar.rs::From<Vec<Component>> for crate::Calendar", "src/parser/calendar.rs::From<Vec<Component>> for crate::Calendar"]}
{"id": "C57", "title": "find_prop agrees with the converted component", "statement": "Component::find_prop returns the first property of that exact name, None only if there is none, and its value is the one property_value returns after conversion.", "quantifier": "every parsed component, every name", "why_tests_cant": "Depends on repetition, order and on the list of multi-valued names.", "anchors": ["src/parser/components.rs::Component::find_prop", "src/parser/components.rs::From<Component> for InnerComponent"]}
{"id": "C58", "title": "Default value types are those of RFC 5545", "statement": "A property name has a default value type exactly if RFC 5545 defines the property, and it is the type given there; names are compared without regard to case.", "quantifier": "every string", "why_tests_cant": "Nothing but these names may have a type: a claim about all strings.", "anchors": ["src/value_types.rs::ValueType::by_name"]}
{"id": "C59", "title": "Generated UIDs are distinct", "statement": "The UIDs that serialization generates for the components of a calendar without one, at any nesting depth, are pairwise different if the random numbers drawn are.", "quantifier": "every calendar, any nesting, every clock and random source", "why_tests_cant": "A UUID generated once and reused for several components, or truncated when printed, collides only in certain shapes of calendars.", "anchors": ["src/components.rs::Component::fmt_write", "src/calendar.rs::Calendar::fmt_write"]}
{"id": "C60", "title": "A zoned time keeps its instant", "statement": "Converting a chrono DateTime<Tz> into a CalendarDateTime and back with try_into_utc gives the same instant, directly or after storing it as start, end or due date; an unknown zone name or a date that does not exist is refused; floating times convert to no instant.", "quantifier": "every time zone database, zone, instant and component", "why_tests_cant": "Depends on the whole zone database and on every instant, in particular where clocks are put back.", "anchors": ["src/components/date_time.rs::CalendarDateTime::try_into_utc", "src/components/date_time.rs::CalendarDateTime::from_date_time", "src/components/date_time.rs::CalendarDateTime::from_ymd_hm_tzid", "src/components/date_time.rs::TryFrom<(NaiveDateTime, &str)>", "src/components/date_time.rs::DatePerhapsTime::with_timezone"]}
{"id": "C61", "title": "Triggers say when the alarm goes off", "statement": "after_start/before_start/after_end/before_end and the From conversions make triggers whose accessors return the duration with its sign, the related end or the time; the TRIGGER property written denotes exactly that.", "quantifier": "every duration, date-time and trigger", "why_tests_cant": "Sign and unit of every duration; tests check a handful of values.", "anchors": ["src/components/alarm.rs::Trigger::after_start", "src/components/alarm.rs::Trigger::before_start", "src/components/alarm.rs::Trigger::before_end", "src/components/alarm.rs::Trigger::related", "src/components/alarm.rs::Trigger::as_duration", "src/components/alarm.rs::From<Trigger> for Property"]}
{"id": "C62", "title": "Builder calls depend on each other only through names", "statement": "What a sequence of builder calls builds is determined by the last value set under each name, the sequence of values appended under each multi-valued name, and the sequence of sub-components; independent calls commute, and a call overridden later can be dropped.", "quantifier": "every two sequences of builder calls", "why_tests_cant": "A claim about all interleavings of calls.", "anchors": ["src/components.rs::Component::append_property", "src/components.rs::Component::append_multi_property", "src/components.rs::EventLike::starts", "src/components.rs::EventLike::all_day"]}
{"id": "C63", "title": "Parameter order is unobservable", "statement": "A parameter set twice keeps the last value, no parameter occurs twice, setting different parameters commutes, and the order of the parameters influences no value read from the property (its value type, dates, triggers, parameters).", "quantifier": "every property and permutation of its parameters", "why_tests_cant": "HashMap iteration order is arbitrary: any order may occur at run time.", "anchors": ["src/properties.rs::Property::add_parameter", "src/properties.rs::Property::append_parameter", "src/properties.rs::Property::get_param_as", "src/properties.rs::Property::value_type"]}
{"id": "C64", "title": "What is read back from written text, exactly", "statement": "Whatever its TEXT values and however often a name occurs, a written property, component or calendar is always parsed without an error, and the result is determined: TEXT values come back with backslash-colon turned into a colon and backslash-n or -N into a line feed and are otherwise unchanged; other values, names and parameters come back unchanged; repeated names keep all values if multi-valued and the last one otherwise; a component is an event, todo or venue exactly if that is its name.", "quantifier": "every property, component and calendar whose names and parameters the parser accepts and whose non-TEXT values contain no CR LF and no line break before a blank; every clock and UUID source", "why_tests_cant": "Tests read back chosen values; the claim determines the result for every text, including those that do not survive.", "anchors": ["src/parser/parsed_string.rs::ParseString::unescape_text", "src/properties.rs::Property::fmt_write", "src/parser/calendar.rs::FromStr for crate::Calendar", "src/parser/components.rs::From<Component> for CalendarComponent", "src/components.rs::Component::fmt_write"]}
{"id": "C65", "title": "Importing a document and exporting it again keeps it", "statement": "A calendar read from a document, written and read again is the same calendar, up to DTSTAMP and UID being added where they were missing; from then on writing and reading change nothing.", "quantifier": "every document the parser accepts, in either line ending style, with any folding", "why_tests_cant": "A claim about all documents, with all spellings of folding, parameters and escapes.", "anchors": ["src/parser/calendar.rs::FromStr for crate::Calendar", "src/parser/calendar.rs::From<Calendar> for crate::Calendar", "src/calendar.rs::Calendar::fmt_write", "src/parser/parsed_string.rs::ParseString::unescape_text"]}
{"id": "C66", "title": "The written text is determined character by character", "statement": "A property is written as its name, its parameters as ;NAME=value with the value in double quotes exactly if it has a colon or a semicolon, a colon, and the value, in which (exactly for TEXT) backslash, comma and semicolon get a backslash and a line feed becomes \\N; the line is cut into pieces joined by CR LF SPACE exactly if it is longer than 75 octets. A component and a calendar are the lines of their properties and then their sub-components between BEGIN and END lines. Dates and times are digits in fixed places (a leap second is second 60; a year outside 0 to 9999 has a sign and at least four digits), numbers have no leading zeros, generated UIDs are 8-4-4-4-12 lower-case hexadecimal digits.", "quantifier": "every property, component and calendar that is written; every date; every number", "why_tests_cant": "The text is determined for all names, values, parameters, trees, dates and numbers, where tests compare single outputs.", "anchors": ["src/properties.rs::Property::fmt_write", "src/properties.rs::Property::quote_if_contains_colon", "src/properties.rs::Property::escape_text", "src/components.rs::Component::fmt_write", "src/calendar.rs::Calendar::fmt_write", "src/components/date_time.rs::DatePerhapsTime::to_property", "src/components.rs::Component::priority"]}
{"id": "C67", "title": "Single parameters, properties and components: every text", "statement": "Reading a single parameter or property is determined for every text: a parameter is a semicolon, blanks, the longest name, and after an equals sign a quoted value, or all up to the next semicolon or colon; a property is an error exactly if it starts (after white space) with END or BEGIN, a property line if it has the form of one, and otherwise the longest name at its start, without value or parameters. What follows the item is ignored, as it is after the END line of a single component.", "quantifier": "every text", "why_tests_cant": "A complete description of the accepted texts and their meaning, malformed ones included.", "anchors": ["src/parser/parameters.rs::parameter", "src/parser/parameters.rs::TryFrom<&str> for Parameter", "src/parser/properties.rs::property", "src/parser/properties.rs::TryFrom<&str> for Property", "src/parser/components.rs::read_component"]}
{"id": "C68", "title": "The parser's language: every text is read exactly as an inductive grammar says", "statement": "For every text, read_components, read_calendar_simple and read_calendar return one component (or the calendar made of it) exactly if the text is, after line breaks, BEGIN: in any case, the longest name, and then properties and components up to an END line whose text starts with that name, with nothing after it; they return nothing exactly if the text starts with something else, or something follows the component, or the inside of the component goes on to a place where nothing can be read (as at the end of the text); they return an error exactly if END is followed by another name or END or BEGIN stands where a property is expected. An unclosed component is read as a property called begin if it is not written BEGIN in capitals. read_component accepts the component with anything after it.", "quantifier": "every text (no well-formedness condition), both error types", "why_tests_cant": "An if-and-only-if over all texts, malformed and truncated ones included, with nesting of any depth.", "anchors": ["src/parser/components.rs::component", "src/parser/components.rs::components", "src/parser/components.rs::read_component", "src/parser/mod.rs::read_components", "src/parser/mod.rs::read_calendar", "src/parser/mod.rs::read_calendar_simple", "src/parser/properties.rs::property", "src/parser/utils.rs::line_separated"]}
{"id": "C69", "title": "Where content lines are cut, exactly", "statement": "Writing a property returns a text exactly if its content line (name, parameters, value) can be cut at the places a separate description gives, and then the text is that line so cut, each piece but the first after CRLF and a space, CRLF at the end. A cut is tried 75 octets from the start, later 74 octets after the last cut, as long as more than 75 octets remain; it moves back by one if the character of that number (octets are taken for characters) is white space, and back until a character starts there, past one more for each number of a white space character on the way. There is at most one such cutting; where it goes back past the last cut or never gets on, writing does not return. For lines of ASCII characters it always exists and the pieces have 75, 74, 74, ... characters, one less where white space would start the next line.", "quantifier": "every property and every content line (any characters of any length, any white space)", "why_tests_cant": "An if-and-only-if over all lines, including those for which writing never ends.", "anchors": ["src/properties.rs::fold_line", "src/properties.rs::Property::fmt_write"]}
{"id": "C70", "title": "The text of a reserialized parsed calendar", "statement": "Writing a parsed calendar returns a text exactly if each of its property lines can be cut; the text is BEGIN:VCALENDAR, each property with its name, its parameters in their order (key alone where there is no value, no quotes added) and its value unchanged, cut as in C69, each component likewise in its order, and END:VCALENDAR, with CRLF after every line. DTSTAMP and UID lines are added only in components called calendar (in any case; not vcalendar) which have none.", "quantifier": "every parsed calendar (components nested to any depth), every clock and identifier source of four-digit years", "why_tests_cant": "The whole output is determined for all trees, not for some fixtures.", "anchors": ["src/parser/components.rs::LikeComponent::fmt_write", "src/parser/calendar.rs::Display for Calendar", "src/parser/properties.rs::Property::fmt_write"]}
{"id": "C71", "title": "Exactly which texts are read as dates and times", "statement": "A text is read as a date exactly if it is a year (up to four digits, or a sign and any number of digits), a month and a day of one or two digits, each after any white space, a number shorter than allowed not being followed by a digit, and the day exists in the Gregorian calendar and the year is one chrono has; as a date-time exactly if that is followed by T, an hour below 24, a minute below 60 and a second of at most 60 (the leap second); as UTC with a Z at the end. A property's date value is a date exactly if it says VALUE=DATE and its text is one, else a time in the zone of its TZID, or without TZID local or UTC; for a parsed property VALUE does not matter, nor TZID if the text is a date or in UTC, and a TZID without a value gives an error.", "quantifier": "every text; every property and parsed property", "why_tests_cant": "An if-and-only-if: all the other texts are refused, which no list of examples shows.", "anchors": ["src/components/date_time.rs::parse_utc_date_time", "src/components/date_time.rs::parse_naive_date_time", "src/components/date_time.rs::CalendarDateTime::from_property", "src/components/date_time.rs::CalendarDateTime::from_str", "src/components/date_time.rs::DatePerhapsTime::from_property", "src/components/date_time.rs::TryFrom<&Property> for DatePerhapsTime"]}
{"id": "C72", "title": "Triggers, times to live, actions and native times: exactly what is read and written", "statement": "A trigger is read from a property exactly if the property is called TRIGGER and says VALUE=DATE-TIME with the text of a local or UTC time, or says VALUE=DURATION or nothing and its text is a duration of at most i64::MAX milliseconds; RELATED=START or END is kept, any other RELATED is dropped. The time to live of a calendar is the first REFRESH-INTERVAL if that is readable as a duration, else the first X-PUBLISHED-TTL, and nothing if the one taken is too long. AUDIO, EMAIL and DISPLAY are the actions of these names, every other text is kept as it is. Native UTC times are written with Z, local times without, dates with VALUE=DATE, zoned times with the name of their zone. as_event and as_todo answer exactly for events and to-dos. print writes the text and one more line break. An e-mail alarm has exactly ACTION, TRIGGER, DESCRIPTION and SUMMARY.", "quantifier": "every property, calendar, text, time, zone database and duration parser", "why_tests_cant": "If-and-only-if statements over all properties and calendars.", "anchors": ["src/components/alarm.rs::TryFrom<&Property> for Trigger", "src/components/alarm.rs::Action", "src/components/alarm.rs::Alarm::email", "src/calendar.rs::Calendar::get_ttl", "src/calendar.rs::Calendar::print", "src/calendar/calendar_component.rs::as_event", "src/calendar/calendar_component.rs::as_todo", "src/components/date_time.rs::DatePerhapsTime"]}
{"id": "C73", "title": "Parsed calendars survive JSON", "statement": "With the feature serde, every parsed calendar is read back unchanged from the JSON it is written as (so the iCalendar text written from it is the same), and different calendars have different JSON. A JSON value is read as a calendar exactly if it is, at each level, an object with each field once (in any order, unknown fields ignored, a missing parameter value standing for none) or an array of exactly the fields.", "quantifier": "every parsed calendar; every JSON value", "why_tests_cant": "All trees of any depth and all JSON values; the failure only shows beyond 62 levels.", "anchors": ["src/parser/calendar.rs::Calendar", "src/parser/components.rs::Component", "src/parser/properties.rs::Property", "src/parser/parameters.rs::Parameter", "src/parser/parsed_string.rs::ParseString", "examples/json_to_ical.rs::main", "examples/ical_to_json.rs::main"]}
{"id": "C74", "title": "Parsing takes work proportional to the length of the text", "statement": "The number of calls of the recursive parser of components that one call of read_calendar makes is at most proportional to the length of the text.", "quantifier": "every text", "why_tests_cant": "A bound for texts of every length; the failure needs nested lower-case begin lines that are never closed, and doubles the time per line.", "anchors": ["src/parser/components.rs::component", "src/parser/components.rs::components", "src/parser/mod.rs::read_calendar", "src/parser/properties.rs::property"]}
{"id": "C75", "title": "Getters answer exactly what is stored, and what the last line of the text says", "statement": "Every typed getter of a component (summary, description, uid, url, location, the address parts; timestamp, created, last modified, completed; start, end, due; priority, sequence, percent complete; class and the statuses) answers a value exactly if a property is stored under its name whose text is that value, for times a UTC time text, for numbers a decimal in range. For a component read from a text, that is exactly what the last line of that name says (LAST_MODIFIED for get_last_modified, see C29). get_value_as and get_param_as hand the stored text to the given reader.", "quantifier": "every component and every parsed component; every getter; every value", "why_tests_cant": "All combinations of repeated and unreadable lines, for each of twenty-one getters.", "anchors": ["src/components.rs::get_start", "src/components.rs::get_end", "src/components.rs::get_timestamp", "src/components.rs::get_created", "src/components.rs::get_priority", "src/components.rs::get_sequence", "src/components.rs::get_class", "src/components/todo.rs::get_due", "src/components/todo.rs::get_completed", "src/components/todo.rs::get_percent_complete", "src/components/event.rs::get_status", "src/components/venue.rs::get_locality", "src/properties.rs::get_value_as", "src/properties.rs::get_param_as", "src/parser/components.rs::From<Component> for CalendarComponent"]}
{"id": "C76", "title": "Writing without overflow checks", "statement": "A property whose name does not start with non-ASCII white space is written the same by builds with and without arithmetic overflow checks (debug and release): the same text, a panic in both, or no end in both. For other lines: whatever is folded with the checks is folded the same without; where the checked loop panics at the subtraction, the unchecked one counts down from 2^64 (at least 2^64 - 1 - length turns), writes the rest of the line uncut and an empty last piece, and the result still unfolds to the line.", "quantifier": "every line of fewer than 2^64 octets; every property", "why_tests_cant": "Tests run in one profile; the difference needs particular lines of multi-octet characters, and 2^64 turns.", "anchors": ["src/properties.rs::fold_line", "src/properties.rs::fmt_write"]}
{"id": "C77", "title": "Written calendars in the grammar of RFC 5545", "statement": "RFC 5545's grammar (content lines with parameters, quoted parameter values, TEXT escapes, folding, nested BEGIN/END) reads a text in at most one way. A property is written as a line of the grammar that says what the property says if and only if its name and parameter names are tokens, parameter values have no control characters and no double quotes, and the value has no control characters (LF is allowed in TEXT values, which decode to the value). A calendar is written as a document of the grammar that says exactly the calendar, with the generated DTSTAMP and UID properties, if and only if all its properties are within these limits and none is called BEGIN or END.", "quantifier": "every property, every calendar made by builder calls or by parsing, every clock and identifier source", "why_tests_cant": "Tests compare a few outputs with expected texts; they do not read them with the grammar of the standard, nor show that there is no other reading.", "anchors": ["src/properties.rs::fmt_write", "src/properties.rs::escape_text", "src/properties.rs::fold_line", "src/components.rs::fmt_write", "src/calendar.rs::fmt_write"]}
{"id": "C78", "title": "How writing fails", "statement": "The folding of a line either returns, or panics, or goes on for ever; which of the three is decided by the places at which the line is cut. A component, a calendar or a parsed calendar is written if and only if each of its properties' lines can be folded; otherwise the first line, in the order of writing (own properties by name, multi-properties, sub-components), that cannot be folded decides whether the call panics or never returns. There is no other way to fail: generated DTSTAMP and UID lines, BEGIN and END never do.", "quantifier": "every line, property, component and calendar made by builder calls or by parsing, every parsed calendar, every clock and identifier source", "why_tests_cant": "A test cannot observe that a call never returns, and the bad lines need long runs of multi-octet characters and white space.", "anchors": ["src/properties.rs::fold_line", "src/properties.rs::fmt_write", "src/components.rs::fmt_write", "src/calendar.rs::fmt_write", "src/parser/properties.rs::fmt_write", "src/parser/components.rs::fmt_write"]}
{"id": "C79", "title": "The exact errors of the parser", "statement": "For every text, the readers of calendars, components, properties and parameters fail exactly on the texts given by the specification, and the error consists of exactly the entries given there: what went wrong (END that does not match, END or BEGIN in place of a property, no component, a component that gets stuck, a parameter without semicolon), with its location, and one entry for each component around, with the place at which its next item was expected. The simple reader reports the innermost of these entries. For each rejected text there is one error message, and it lists these entries.", "quantifier": "every input text, every public reading function", "why_tests_cant": "Tests check that some texts are rejected; nothing checks what is reported, nor for which texts.", "anchors": ["src/parser/mod.rs::read_calendar", "src/parser/mod.rs::read_calendar_simple", "src/parser/mod.rs::read_components", "src/parser/components.rs::component", "src/parser/components.rs::read_component", "src/parser/properties.rs::property", "src/parser/parameters.rs::parameter", "src/parser/calendar.rs::from_str"]}
{"id": "C80", "title": "Where a text is folded does not matter", "statement": "Reading does not depend on where the lines of a text are folded: two texts unfold to the same text exactly if one can be turned into the other by putting in and taking out folds (a line break and a blank) that do not break up another fold, and every public reading function gives the same result on both, errors included.", "quantifier": "every pair of texts that differ in folds only; every public reading function", "why_tests_cant": "There are infinitely many ways to fold a text, including inside of names, of END lines and of other folds.", "anchors": ["src/parser/utils.rs::unfold", "src/parser/calendar.rs::from_str", "src/parser/components.rs::from_str", "src/parser/properties.rs::from_str", "src/parser/mod.rs::read_calendar"]}
{"id": "C81", "title": "A text that was cut off is not taken for data", "statement": "If any end of a written calendar or component, longer than its last line break, is missing then the rest is rejected: parsing never returns a calendar or component with part of the data. Without the last line break alone it is read as the whole.", "quantifier": "every calendar and component that can be written, every position at which its text is cut off; every document with upper-case keywords and CR LF", "why_tests_cant": "There are as many prefixes as characters, of infinitely many texts, and folding, END lines whose names are prefixes of one another, and values that look like lines make different positions behave differently.", "anchors": ["src/parser/components.rs::component", "src/parser/components.rs::components", "src/parser/calendar.rs::from_str", "src/calendar.rs::fmt_write", "src/components.rs::fmt_write"]}
{"id": "C82", "title": "Which differences between texts reading does not see", "statement": "Two texts are read as equal components exactly if under each name the last property is the same (or, for multi-valued names, the properties in order), the last value of each parameter is the same, and the sub-components are so in order. So the order of lines with different names, and of lines among sub-components, does not matter to a component; a calendar keeps its own properties all and in the order of the text.", "quantifier": "every pair of parsed components and calendars; every document and every order of its lines", "why_tests_cant": "Equality of what is read is stated for all pairs of texts, in both directions, at any depth of nesting.", "anchors": ["src/parser/components.rs::From<Component> for InnerComponent", "src/parser/components.rs::From<Component> for CalendarComponent", "src/parser/properties.rs::From<Property> for Property", "src/parser/calendar.rs::From<Calendar> for Calendar", "src/components.rs::InnerComponent"]}
{"id": "C83", "title": "Writing into a writer that fails", "statement": "Writing a property, component or calendar into any fmt::Write makes one fixed sequence of write_str calls, line by line. It stops at the first call that fails and returns the error; no error is passed over. What has been accepted is the start of the text that to_string would give. If a line cannot be folded, all lines before it have been written and nothing of it. A buffer of n octets fails exactly if the text is longer.", "quantifier": "every component and calendar that can be made, every parsed calendar, every state type and behaviour of the writer", "why_tests_cant": "The writer is an arbitrary state machine that may fail at any call; tests try some failing writers on some calendars.", "anchors": ["src/calendar.rs::Calendar::fmt_write", "src/calendar.rs::Display for Calendar", "src/components.rs::Component::fmt_write", "src/properties.rs::Property::fmt_write", "src/parser/components.rs::LikeComponent::fmt_write", "src/parser/properties.rs::Property::fmt_write", "src/lib.rs::write_crlf"]}
{"id": "C84", "title": "Different data have different texts", "statement": "No two TEXT values are escaped to the same text. Two different properties, components or calendars are never serialized to the same text, whatever their TEXT values: from the text one can tell the kind, every property with its parameters and value, their order and the nesting. (False if a parameter value contains a double quote, if a value that is not TEXT contains CR LF, if a name is used for a property in one and for a multi-property in the other, or if DTSTAMP or UID is generated.)", "quantifier": "every pair of properties, of components and of calendars, every pair of clocks and sources of UIDs", "why_tests_cant": "A collision is a pair of inputs; tests compare the texts of some pairs.", "anchors": ["src/properties.rs::Property::fmt_write", "src/properties.rs::Property::escape_text", "src/properties.rs::Property::quote_if_contains_colon", "src/components.rs::Component::fmt_write", "src/calendar.rs::Calendar::fmt_write"]}
{"id": "C85", "title": "The text is as long as the data, up to a constant factor", "statement": "The serialized text of a property, a component or a calendar has at least as many octets as the names, parameters and values in it, and at most 8 times as many plus 90 for each component, property and parameter. A property line takes exactly 3 more octets for each place where it is cut and 2 for its end; an ASCII line is cut at most once in 73 octets.", "quantifier": "every property, component and calendar that can be serialized, every clock and source of UIDs", "why_tests_cant": "A bound for all data, of any length, nesting and alphabet.", "anchors": ["src/properties.rs::fold_line", "src/properties.rs::Property::fmt_write", "src/components.rs::Component::fmt_write", "src/calendar.rs::Calendar::fmt_write"]}
{"id": "C86", "title": "Folding takes time proportional to the length of the line", "statement": "The number of characters visited while folding a line is at most a constant times its length. (False: chars().nth starts at the beginning of the line each time, so the number grows with the square of the length, also for ASCII lines.)", "quantifier": "every line", "why_tests_cant": "The growth over all lengths; tests fold lines of a few hundred octets.", "anchors": ["src/properties.rs::fold_line"]}
{"id": "C87", "title": "What is parsed can be written and comes from the text", "statement": "Whatever text is parsed, the calendar, component or property that comes out has only names of name characters, none starting with END or BEGIN; each parameter name once; no parameter value with both a double quote and a colon or semicolon; multi-valued properties under the multi-valued names and single ones elsewhere, each under its own name; and events, todos and venues as such. Every name, parameter and value stands in the unfolded text, a value perhaps with its escapes undone, and no value runs across a CR LF.", "quantifier": "every text, well-formed or not", "why_tests_cant": "A claim about all texts, including those with any mixture of broken lines, quotes, and keywords.", "anchors": ["src/parser/utils.rs::property_key", "src/parser/utils.rs::valid_key_sequence", "src/parser/parameters.rs::parameters", "src/parser/properties.rs::property", "src/parser/calendar.rs::FromStr for crate::Calendar", "src/parser/components.rs::From<Component<'_>> for InnerComponent"]}
{"id": "C88", "title": "What is parsed is no larger than the text", "statement": "The names, parameters and values of a parsed calendar, component or property have together no more octets than the text, and there are no more components, properties and parameters than octets in the text (the calendar itself not counted). A text read and written again gets longer by a constant factor at most.", "quantifier": "every text, well-formed or not", "why_tests_cant": "A bound for all texts; an amplification shows only for inputs made for it.", "anchors": ["src/parser/calendar.rs::FromStr for crate::Calendar", "src/parser/components.rs::component", "src/parser/properties.rs::property", "src/parser/parameters.rs::parameters", "src/parser/parsed_string.rs::ParseString::unescape_text"]}
{"id": "C89", "title": "Exactly which properties survive print and parse", "statement": "A property, printed, unfolded and parsed as a Property, is read back with the same key, value and parameters if and only if: unfolding gives its content line again; its key and parameter names are of the parser's alphabet and the key does not start with END or BEGIN; each parameter value has no double quote, or has neither semicolon nor colon and the line from there on does not look like a quoted string; a TEXT value has no backslash directly before ':', 'N' or 'n', and any other value has no CR LF.", "quantifier": "every property without duplicate parameter names, any order of its parameters, any lengths", "why_tests_cant": "An equivalence for all properties: no property outside the conditions is read back by accident, not even when a line break or a quote goes missing.", "anchors": ["src/properties.rs::Property::fmt_write", "src/properties.rs::Property::quote_if_contains_colon", "src/parser/properties.rs::property", "src/parser/properties.rs::FromStr for crate::Property", "src/parser/parameters.rs::parameters"]}
{"id": "C90", "title": "Exactly which calendars survive print and parse", "statement": "Take a component or calendar in which no property is called END or BEGIN in any case, no parameter value starts with a double quote or has a line break before a blank, and no value that is not TEXT has a CR LF or a line break before a blank. Printed and parsed, it is read back (up to a DTSTAMP and UID where there were none) if and only if its names are of the parser's alphabet and property names do not start with END or BEGIN, parameter names are distinct, no parameter value has a double quote together with a semicolon or colon, multi-valued properties are exactly under the names the parser knows as multi-valued, no other component calls itself VEVENT, VTODO or VVENUE, and no TEXT value has a backslash directly before ':', 'N' or 'n'. It is read back equal if and only if, besides, every component has its DTSTAMP and UID.", "quantifier": "every such component and calendar that the builder calls or the parser can make, any nesting, every clock and source of UUIDs", "why_tests_cant": "An equivalence for all components: each condition is necessary however the others hold, at any depth, and no combination of losses makes up for another.", "anchors": ["src/calendar.rs::Calendar::fmt_write", "src/components.rs::Component::fmt_write", "src/parser/calendar.rs::FromStr for crate::Calendar", "src/parser/components.rs::FromStr for CalendarComponent"]}
{"id": "C91", "title": "Exactly which parsed (zero-copy) calendars survive printing and reading again", "statement": "A parser::Property, printed, unfolded and read, is read as itself if and only if unfolding gives its line again; its name and parameter names are of the parser's alphabet and its name does not start with END or BEGIN; parameter values are not empty and have no semicolon or colon; no parameter value begins, with what follows it on the line, like a quoted string; its value has no CR LF; and a TEXT value has no backslash before one of \\ , ; : N n. Every parser::Calendar and parser::Component that is read as itself from its own printed and unfolded text meets these conditions in all its properties (except the ones about quoted strings and unfolding) and has component names of the parser's alphabet. And if no property is called END or BEGIN in any case, no parameter value starts with a double quote, and no value has a line break before a blank, these conditions, together with a DTSTAMP and a UID in every component called CALENDAR in any case, are sufficient as well; when only these stamps are missing, what is read is the calendar with just these stamps added.", "quantifier": "every parsed property, component and calendar, any nesting, every clock and source of UUIDs, every Unicode table", "why_tests_cant": "An equivalence for all calendars: no loss in one place of a document (a quote or backslash swallowed) can be made up for by something read into it elsewhere, at any depth.", "anchors": ["src/parser/components.rs::LikeComponent::fmt_write", "src/parser/calendar.rs::Display for Calendar", "src/parser/properties.rs::Property::fmt_write", "src/parser/components.rs::read_component", "src/parser/properties.rs::property"]}
{"id": "C92", "title": "Which strings of a parsed calendar are borrowed from the text and which are copied", "statement": "Parsing never changes or copies a string without need. Names, parameter keys and parameter values of a parsed calendar, component, property or parameter are always slices of the text that is parsed. The value of a property is a slice too, unless it is of type TEXT and has a backslash before one of \\ , ; : N n: then, and only then, it is a copy, the unescaped slice. Only the value of a property with neither parameters nor a value is neither. In the order of the document (a component's name, then its properties and components, mixed, each in their order) the slices, and the slices that copies are made of, lie one after the other in the text without overlap; so all strings together have at most as many octets as the text, at least one less for each copy, and a text without a backslash is read without copying. What is said by the strings is what the parser of plain strings (C01-C91) says. to_owned and into_owned copy without changing the text, and comparison with == looks at the text only.", "quantifier": "every text and every Unicode table; every string, borrowed or owned", "why_tests_cant": "Equality of parsed strings looks only at their text, so no test comparing parsed values can see a copy, a slice taken from another place of the text, or two strings sharing a slice; and the claim is about every text.", "anchors": ["src/parser/parsed_string.rs::ParseString::unescape_text", "src/parser/parsed_string.rs::ParseString::unescape_by_value_type", "src/parser/parsed_string.rs::ParseString::to_owned", "src/parser/parsed_string.rs::ParseString::into_owned", "src/parser/properties.rs::property", "src/parser/parameters.rs::base_parameter", "src/parser/utils.rs::valid_key_sequence_cow", "src/parser/components.rs::component"]}
{"id": "C93", "title": "Finding the ends of the values takes work in proportion to the text", "statement": "There is a constant c so that reading any text looks for a line break at no more than c places for each character of the text. (False: the end of a value is looked for as CR LF first, in all of the text that follows, and as LF only if there is no CR LF. A document that ends its lines with LF therefore takes at least the square of the number of its lines with a value. True for documents that end their lines with CR LF: they take at most one look for each character. For a text with a CR LF after its last colon, in particular one that ends with CR LF, the looks are at most 2^s for each character, s being the number of begin: not written BEGIN: (C74); and for any text at most twice its length for each call of the component parser.)", "quantifier": "every text, document of either style and Unicode table", "why_tests_cant": "Tests compare what is read, not the work, and their documents are small; the worst case is a family of growing documents, and the bound is for every text.", "anchors": ["src/parser/properties.rs::property", "src/parser/components.rs::component", "src/parser/components.rs::components", "src/parser/mod.rs::read_calendar"]}
{"id": "C94", "title": "An error message is at most a constant times as long as the text", "statement": "If a reader with a message refuses a text of n octets (n < 2^63), the message has at most 22*n + 382 octets; so a server that answers with the message cannot be made to send more than that. Every component around the error adds an entry that shows a whole line of the text again and a column marker, but no two of these components start on one line. The bound is of the right order: arbitrarily long texts have messages four times as long.", "quantifier": "every text, every reader with a message (read_calendar, read_components, read_component, read_property, read_parameter and the three from_str) and Unicode table", "why_tests_cant": "The tests look at the messages of a few small texts; that no text has a message with the square of its length (every entry shows a line of the text, and there can be as many entries as components) is a claim about all nestings of components.", "anchors": ["src/parser/mod.rs::read_calendar", "src/parser/mod.rs::read_components", "src/parser/components.rs::read_component", "src/parser/components.rs::component", "src/parser/calendar.rs::from_str", "src/parser/components.rs::from_str"]}
{"id": "C95", "title": "How deep the parser calls itself, for every text", "statement": "The depth of the recursion of the component parser is determined for every text, also for those that are refused or read in a surprising way: it is the depth of the relation text_deep, which follows the BEGIN lines that are open where the next thing is read (a line costs a call too, since a component is tried first). With room for that many nested calls the parser gives what it gives with any room; with room for fewer it does not answer. On a document the depth is that of its nesting, one more for a line than for the component around it; what is read is nested no deeper than the calls; and a text of n characters takes at most (n + 8) / 7 nested calls, which is attained for every depth of at least two.", "quantifier": "every text, every bound on the nested calls, every document, error type and Unicode table", "why_tests_cant": "The tests parse documents of at most four levels; that no other part of a text (values, parameters, missing ends, components read as lines) adds to the recursion, and how short a text of a given depth can be, are claims about all texts.", "anchors": ["src/parser/components.rs::component", "src/parser/components.rs::read_component", "src/parser/mod.rs::read_calendar"]}
{"id": "C96", "title": "Unicode tables matter only for names beyond ASCII that are read", "statement": "What is written (properties, components, calendars, print) and what the getters give does not depend on the Unicode tables of the standard library, for any values, names and parameters. What is read (calendars, components, properties, parameters, and the error messages) depends on them only in which characters beyond ASCII that occur in the text are letters or digits; so an ASCII text, and a text whose other characters keep their class, is read in the same way by programs built with different versions of Unicode. Each such character matters: two tables read all properties alike exactly if they have the same letters and digits. Writing a parsed calendar depends on them only in the small letters of the names of its components.", "quantifier": "every two Unicode tables, every text, property, component, calendar, clock and source of UIDs", "why_tests_cant": "A test runs with the one table of the compiler that built it; independence of the table is a claim about pairs of programs on all inputs.", "anchors": ["src/parser/utils.rs::valid_key_sequence", "src/parser/utils.rs::valid_key_sequence_cow", "src/value_types.rs::by_name", "src/parser/properties.rs::property", "src/parser/components.rs::component", "src/parser/components.rs::fmt_write", "src/properties.rs::fmt_write"]}
{"id": "C97", "title": "The JSON text of a parsed calendar, and which texts are read as which calendar", "statement": "With the feature serde, a parsed calendar is written to JSON text (in one line or indented) that is well-formed by RFC 8259 and stands for the JSON value of the calendar, without control characters in strings; the first form has no white space outside of strings, the second has one value or bracket a line (empty arrays and objects are written as [] and {}), indented by two spaces a level, and is otherwise the same; different calendars have different texts. A text is read as a calendar exactly if it is a JSON text by RFC 8259 whose value is a calendar (C73); each text has one value. Writing and reading gives the same calendar exactly if it has at most 127 levels of arrays and objects, and otherwise an error. The example programs ical_to_json and json_to_ical, one after the other, print what the calendar read from the text prints; the first prints the indented JSON, or fails with the message of the parser.", "quantifier": "every parsed calendar, every text, every JSON value, clock and source of UIDs", "why_tests_cant": "All strings with all characters (quotes, backslashes, control characters, surrogate pairs) in all places and all JSON spellings of them.", "anchors": ["src/parser/calendar.rs::Calendar", "src/parser/components.rs::Component", "src/parser/properties.rs::Property", "src/parser/parameters.rs::Parameter", "src/parser/parsed_string.rs::ParseString", "examples/json_to_ical.rs::main", "examples/ical_to_json.rs::main"]}
{"id": "C98", "title": "Documents of RFC 5545's grammar are read as what they say", "statement": "Every document of the grammar of RFC 5545 (one component: content lines with parameters, quoted parameter values and lists of them, folded anywhere, nested BEGIN/END) is read as the component it says: names, parameters in order with their values (several values as one value with commas), values (TEXT decoded, TEXT being decided by the VALUE parameter or the default of the name, in any case of letters), sub-components in order.", "quantifier": "every document of the grammar, with every nesting, folding and quoting", "why_tests_cant": "All documents of a grammar; the ones that fail are legal but unlike what the library writes (several quoted values, empty quotes, names starting with END, names in small letters with escapes).", "anchors": ["src/parser/components.rs::component", "src/parser/properties.rs::property", "src/parser/properties.rs::determin_value_type", "src/parser/parameters.rs::pair_parameter", "src/parser/mod.rs::read_calendar", "src/parser/utils.rs::unfold"]}
{"id": "C99", "title": "A calendar that is imported and exported again says the same to any reader of RFC 5545", "statement": "A valid calendar of the grammar of RFC 5545 that is read as it says (C98), parsed and serialized again, gives one document of the grammar, with the same components in order, in each the same lines of each name in order (with a generated DTSTAMP and UID where there was none), each line with the same parameters and values, and with the same texts where the value is TEXT.", "quantifier": "every calendar document of the grammar, with every nesting, folding and quoting, every clock and random source", "why_tests_cant": "The claim compares two documents as an independent reader would understand them, for all documents of a grammar; round trips through the library's own reader cannot show that two categories have become one.", "anchors": ["src/parser/mod.rs::read_calendar", "src/parser/components.rs::component", "src/parser/properties.rs::property", "src/calendar.rs::fmt_write", "src/components.rs::fmt_write", "src/properties.rs::fmt_write", "src/properties.rs::escape_text"]}
{"id": "C100", "title": "Equality compares what is there, and equal calendars behave alike", "statement": "Two properties, components or calendars are equal (==) exactly if they hold the same entries: the same names, values and parameters in whatever order the parameters are kept, multi-properties, sub-components, calendar properties and components one by one in order. Equality is an equivalence; no getter tells equal components apart; the lines written for equal calendars are the same but for the order of the parameters, and if no property has two parameters the results of writing are the same. Parsed components are equal exactly if they say the same, whether their strings are borrowed or owned.", "quantifier": "all pairs of components and calendars that can be made by builder calls or by parsing, all orders of parameters, all pairs of parsed components", "why_tests_cant": "Equality is used by every round-trip assertion of the project's tests; whether it means what these assertions suggest is a statement about all pairs of values and all iteration orders of hash maps.", "anchors": ["src/properties.rs::Property", "src/components.rs::InnerComponent", "src/calendar/calendar_component.rs::CalendarComponent", "src/calendar.rs::Calendar", "src/components/other.rs::Other", "src/parser/parsed_string.rs::ParseString", "src/parser/components.rs::Component", "src/parser/properties.rs::Property", "src/parser/parameters.rs::Parameter"]}
{"id": "C101", "title": "A text that is put in stays in its place", "statement": "If two calendars differ only in the values of TEXT properties with certain names (SUMMARY, DESCRIPTION, LOCATION, COMMENT, ...), then the calendars read back from their serialized texts differ only in the values of TEXT properties with these names: they have the same components and sub-components in the same order, the same properties and parameters, and the same values everywhere else. Two sequences of builder calls that differ only in such texts build such calendars. This does not hold of values that are not TEXT or of parameters: a URL or a LANGUAGE parameter can bring a line of its own that changes another property.", "quantifier": "all pairs of calendars with the same structure whose TEXT values are arbitrary strings, all sets of names, all pairs of builder call sequences that differ in texts, all nesting", "why_tests_cant": "It is a statement about pairs of runs (noninterference): no text, among infinitely many, supplied by a user may influence any other part of what a reader of the calendar sees.", "anchors": ["src/properties.rs::Property::fmt_write", "src/properties.rs::Property::escape_text", "src/components.rs::Component::fmt_write", "src/components.rs::Component::summary", "src/components.rs::Component::description", "src/components.rs::EventLike::location", "src/components.rs::Component::add_property", "src/calendar.rs::Calendar::fmt_write", "src/parser/parsed_string.rs::ParseString::unescape_text", "src/parser/properties.rs::property", "src/parser/components.rs::component"]}
{"id": "C102", "title": "A change of a calendar changes only its own lines of the text", "statement": "If a calendar is changed in one place - a property of a component at any depth is set or replaced, a multi-property is added, a sub-component with its own DTSTAMP and UID is added, a calendar property is added - then its serialized text is the old one with the lines of what was there replaced by the lines of what is there now; every line before and after is the same, and serialization succeeds whenever it did before and the new property can be written on its own. A component that is pushed adds its lines just before END:VCALENDAR. Setting UID or DTSTAMP for the first time is no such change, since a generated line disappears elsewhere.", "quantifier": "all calendars made by builder calls or by parsing, all places at any depth, all properties, the same clock and UUID source before and after", "why_tests_cant": "A statement about pairs of texts (a diff) for all calendars and all places in them; a property that disturbed the order or the folding of others would only show for particular neighbours.", "anchors": ["src/calendar.rs::Calendar::fmt_write", "src/calendar.rs::Calendar::push", "src/calendar.rs::Calendar::append_property", "src/components.rs::Component::fmt_write", "src/components.rs::Component::append_property", "src/components.rs::Component::append_multi_property", "src/components.rs::Component::append_component", "src/properties.rs::Property::fmt_write"]}
{"id": "C103", "title": "However long a calendar is built, edited, saved and loaded, what was saved can be loaded", "statement": "Take any program that builds components and alarms by the builder calls, takes components out of calendars, nests and edits them, puts them into calendars, picks or moves the components of a calendar, names it, imports documents, and saves and loads calendars, in any order and any number of times. If the texts (summary, description, location, UID) are arbitrary, and values that are not TEXT, parameters and names made by the caller keep to what a line can carry, then every saved text is accepted by the parser, the calendar that is read has the same components and properties up to the changes of values of C64, and it can be edited and saved further under the same guarantee.", "quantifier": "all sequences of operations of any length (reachable states), all texts, all clocks and UUID sources at each save", "why_tests_cant": "An invariant over unbounded sequences of operations with arbitrary texts; a test runs a few sequences. A value that grows or loses an escape at every save shows only after several rounds.", "anchors": ["src/calendar.rs::Calendar::fmt_write", "src/calendar.rs::Calendar::push", "src/calendar.rs::Calendar::append", "src/calendar.rs::Calendar::name", "src/calendar.rs::Calendar::ttl", "src/components.rs::Component::fmt_write", "src/components.rs::Component::append_component", "src/components.rs::EventLike::alarm", "src/components/alarm.rs::Alarm::display", "src/components/alarm.rs::Alarm::duration_and_repeat", "src/parser/calendar.rs::Calendar", "src/properties.rs::Property::fmt_write"]}
{"id": "C104", "title": "A change of some lines of a document changes only their properties in the calendar", "statement": "If in one place of a document that the parser accepts, at any depth of nesting, some property lines are replaced by others, added or removed, then the changed document is accepted too, and the calendar read from it differs from the old one only in the properties of these lines: properties with other names, properties before and after the place in a list, all other components and all sub-components are the same. This holds however both documents are folded, and whatever their line ends, blank lines and keyword cases are, as long as no CR LF gets into a document with LF line ends.", "quantifier": "all documents of the grammar (C50) with CR LF or LF line ends, all places at any depth, all lists of old and new lines, all foldings", "why_tests_cant": "A statement about pairs of documents, for all places and all lines; a line that disturbs the reading of others (a quote, an escape, a line break taken for its end) would only show for particular neighbours.", "anchors": ["src/parser/mod.rs::read_calendar", "src/parser/components.rs::component", "src/parser/properties.rs::property", "src/parser/properties.rs::Property", "src/parser/parameters.rs::parameter", "src/parser/utils.rs::line", "src/parser/calendar.rs::Calendar", "src/calendar.rs::Calendar"]}
{"id": "C105", "title": "Putting calendars together commutes with saving and loading", "statement": "Putting the components of one calendar into another, by append, extend or push, gives a calendar whose text is that of the first one with the components' lines of the second one, unchanged, before its last line. Saving and loading the merged calendar gives what is had by merging the two that were saved and loaded, exactly, whatever saving and loading change in each. A document from anywhere with the components of another put at its end is read as the merged calendars. Components without DTSTAMP and UID get these when they are written, so their lines are those the clock and the random numbers give at that point.", "quantifier": "all pairs of calendars that can be written, all clocks and random numbers; for loading all calendars with names and values the parser takes, among them those of sessions of any length (C103); all pairs of documents of the grammar (C50), all foldings", "why_tests_cant": "A homomorphism law over all pairs of calendars; state that leaks from one component into the next (counters, folding, an open quote) shows only for particular neighbours.", "anchors": ["src/calendar.rs::append", "src/calendar.rs::extend", "src/calendar.rs::push", "src/calendar.rs::fmt_write", "src/components.rs::fmt_write", "src/parser/mod.rs::read_calendar", "src/parser/calendar.rs::Calendar"]}
