{
 "claims": [
  {
   "property": "C01",
   "status": "partial",
   "theorems": [
    "C01_lossless_partial",
    "C01_lossless_or_reported_partial",
    "C01_ordinary_partial",
    "C01_document_partial",
    "C01_array_refuted",
    "C01_header_refuted",
    "C01_aot_spelling_refuted",
    "C01_aot_prefix_refuted",
    "C01_inline_blank_refuted",
    "C01_date_blank_refuted",
    "C01_date_array_refuted",
    "C01_aot_order_refuted",
    "C01_table_order_refuted",
    "C01_newline_refuted",
    "C01_indent_refuted"
   ],
   "note": "The unrestricted claim is false: eleven accepted texts that come back changed are proved as witnesses. Proved for all texts: the parser instrumented with ten reports at the places where text is dropped, respelled or moved, agrees with parse, and whenever it makes no report the text comes back character for character. Proved from the text alone: (C01_ordinary_partial) every accepted text without arrays of tables, with bare unindented headers, LF or CRLF line ends, no space after a date, no blank before a comma and inline tables only right after an equals sign comes back character for character; (C01_document_partial) every TOML document in the sense of Document.v - including arrays of tables, quoted and indented headers, inline tables anywhere - in which headers spell one name in one way, headers of three or more names are not indented with spaces, no date is followed by a blank and no comma is preceded by one, is accepted, comes back character for character and means what TOML says. Missing: scattered tables (Document.v leaves them out), and the exact weakest conditions on spelling and blanks."
  },
  {
   "property": "C02",
   "status": "proved",
   "theorems": [
    "C02_parse_terminates",
    "C02_value_terminates",
    "C02_append_terminates",
    "C02_setitem_terminates",
    "C02_value_progress"
   ],
   "note": "The model's fuel (4|s|+16, resp. the table nesting for containers) is never exhausted and more fuel does not change the result. Python's own recursion limit is not modelled."
  },
  {
   "property": "C03",
   "status": "partial",
   "theorems": [
    "C03_exceptions_partial",
    "C03_only_tomlkit_partial",
    "C03_overflow_partial",
    "C03_nolong_partial",
    "C03_overflow_refuted",
    "C03_attribute_refuted"
   ],
   "note": "Every exception of parse is a TOMLKitError, OverflowError or AttributeError (or the model's UnmodelledE); under conditions on the text only TOMLKitError. Both builtin exceptions do occur (refutations)."
  },
  {
   "property": "C04",
   "status": "partial",
   "theorems": [
    "C04_reader_position_partial",
    "C04_reader_position_splitlines_partial",
    "C04_parse_position_partial",
    "C04_end_refuted",
    "C04_crlf_refuted",
    "C04_separator_refuted"
   ],
   "note": "Proved for texts whose only line break is LF, at every offset except the end of a text ending in LF; refuted in the excluded cases: end of input after LF (all such texts), CRLF, other str.splitlines separators."
  },
  {
   "property": "C05",
   "status": "proved",
   "theorems": [
    "C05_basic_string_roundtrip"
   ],
   "note": ""
  },
  {
   "property": "C06",
   "status": "partial",
   "theorems": [
    "C06_multiline_roundtrip_partial",
    "C06_multiline_leading_newline_refuted"
   ],
   "note": "false for values starting with a line break (refuted); proved for all others"
  },
  {
   "property": "C07",
   "status": "partial",
   "theorems": [
    "C07_literal_single_line",
    "C07_literal_multiline_partial",
    "C07_literal_refusals",
    "C07_multiline_leading_newline_refuted"
   ],
   "note": "single-line proved in full; multi-line false for values starting with a line break (refuted), proved for all others"
  },
  {
   "property": "C08",
   "status": "proved",
   "theorems": [
    "C08_escape_deterministic_and_clean"
   ],
   "note": ""
  },
  {
   "property": "C09",
   "status": "proved",
   "theorems": [
    "C09_string_verbatim",
    "C09_scalar_verbatim",
    "C09_value_verbatim"
   ],
   "note": "Every scalar token read by the value parser is rendered as exactly the slice that was read, in every parse and at every position; dates may also take following blanks into their trivia."
  },
  {
   "property": "C10",
   "status": "proved",
   "theorems": [
    "C10_integer_roundtrip"
   ],
   "note": "All integers; CPython's 4300-digit limit not modelled."
  },
  {
   "property": "C11",
   "status": "proved",
   "theorems": [
    "C11_literals_accepted",
    "C11_literals_rejected"
   ],
   "note": "All digit/underscore strings in bases 10, 16, 8, 2."
  },
  {
   "property": "C12",
   "status": "partial",
   "theorems": [
    "C12_arithmetic_text_partial",
    "C12_signed_negative_refuted"
   ],
   "note": "Full statement is false: a signed literal and a negative result give '--6'. Exact characterisation proved."
  },
  {
   "property": "C13",
   "status": "proved",
   "theorems": [
    "C13_date_roundtrip",
    "C13_date_accepts_exactly_real_days"
   ],
   "note": "Gregorian calendar stated independently."
  },
  {
   "property": "C14",
   "status": "proved",
   "theorems": [
    "C14_time_roundtrip"
   ],
   "note": "Naive times (item() of a time with tzinfo is not modelled)."
  },
  {
   "property": "C15",
   "status": "proved",
   "theorems": [
    "C15_datetime_roundtrip"
   ],
   "note": "Naive or whole-minute offset; tz display name not modelled."
  },
  {
   "property": "C16",
   "status": "proved",
   "theorems": [
    "C16_any_string_is_a_key",
    "C16_dotted_keys"
   ],
   "note": ""
  },
  {
   "property": "C17",
   "status": "partial",
   "theorems": [
    "C17_parsed_consistent",
    "C17_history",
    "C17_errors",
    "C17_parsed_partial",
    "C17_overwrite_table_refuted"
   ],
   "note": "Every history of plain values from the empty document (also which operations raise); every allowed history from any parsed document. Not covered: assigning a plain value over a table (refuted: the key moves to the end) and lookups of out-of-order tables."
  },
  {
   "property": "C18",
   "status": "partial",
   "theorems": [
    "C18_delete",
    "C18_delete_nested",
    "C18_header_kept",
    "C18_header_lost_refuted"
   ],
   "note": "Every plain entry of every parsed document; at any depth as long as the table around it keeps its header, which tables written with a header line do. Refuted for API-made tables left with sub-tables only."
  },
  {
   "property": "C19",
   "status": "proved",
   "theorems": [
    "C19_replace",
    "C19_replace_nested"
   ],
   "note": "Every plain entry of every parsed document and, nested, of every table in it; a new value that brings its own comment replaces the comment. Arrays set to multiline by the API are excluded: their layout follows the indentation."
  },
  {
   "property": "C20",
   "status": "partial",
   "theorems": [
    "C20_place_partial",
    "C20_document_partial",
    "C20_glued_refuted",
    "C20_overwrite_refuted"
   ],
   "note": "Position and text of a new plain key: for every container with regular entries (C20_place_partial), and for every table of every document of Document.v made of whole lines after any edits of C43, without a hypothesis on the entries (C20_document_partial); what the text then stands for and the re-read are C43. Missing: parsed documents outside Document.v (their entries' regularity is a hypothesis there). Refuted in two corners."
  },
  {
   "property": "C21",
   "status": "proved",
   "theorems": [
    "C21_refused",
    "C21_unique",
    "C21_unique_nested"
   ],
   "note": "After every allowed history of every parsed document."
  },
  {
   "property": "C22",
   "status": "partial",
   "theorems": [
    "C22_list_and_text",
    "C22_parsed_object",
    "C22_created",
    "C22_same_errors",
    "C22_indexing",
    "C22_comment_refuted",
    "C22_lines_partial",
    "C22_raw_refuted",
    "C22_line_comment_refuted"
   ],
   "note": "For every parsed or created array and every history of append/insert/set/del/extend/reverse/pop/clear-style operations the list equals the plain list and the text is the values in order with whitespace, commas and comments around them. The remaining part (the text re-reads to the same values) is false: C22_comment_refuted. With add_line among the operations: C22_lines_partial (values that are not booleans or inline tables, which add_line stores unwrapped: C22_raw_refuted)."
  },
  {
   "property": "C23",
   "status": "partial",
   "theorems": [
    "C23_commas_partial",
    "C23_created",
    "C23_multiline",
    "C23_first_refuted",
    "C23_double_refuted",
    "C23_missing_refuted",
    "C23_bracket_refuted",
    "C23_lines",
    "C23_added_partial",
    "C23_blank_refuted"
   ],
   "note": "Comma placement proved for all histories on created arrays, on parsed arrays of two layouts, and on every array rendered multi-line. False in general: four refutations. Arrays written line by line with add_line and comments: C23_lines; add_line among other operations: C23_added_partial."
  },
  {
   "property": "C24",
   "status": "partial",
   "theorems": [
    "C24_slice_partial",
    "C24_negative_refuted",
    "C24_negative_stop_refuted",
    "C24_zero_refuted",
    "C24_sort_refuted"
   ],
   "note": "Slices with in-range non-negative bounds and a positive stop proved; negative or zero bounds and sort are false of the code (refuted)."
  },
  {
   "property": "C25",
   "status": "partial",
   "theorems": [
    "C25_line_endings_partial",
    "C25_crcrlf_refuted"
   ],
   "note": "proved except: LF file, text with CR CR LF (refuted)"
  },
  {
   "property": "C26",
   "status": "partial",
   "theorems": [
    "C26_short_escape",
    "C26_long_escape_partial",
    "C26_non_hex_refused_partial",
    "C26_surrogate_refuted",
    "C26_non_hex_accepted_refuted"
   ],
   "note": "hex digits fully settled; false for \\U surrogates and for non-hex sequences that int(_,16) accepts (refuted)"
  },
  {
   "property": "C27",
   "status": "partial",
   "theorems": [
    "C27_dumps",
    "C27_partial",
    "C27_clash_partial",
    "C27_refuted"
   ],
   "note": "Proved for every nested dict (any depth, any keys) except those where a top-level array of dicts contains its own key again further inside (C27_partial; C27_clash_partial gives the wider class). The statement without that exception is false: C27_refuted gives a dict that comes back different. C27_dumps: dumps succeeds on every dict and its text is the direct function doc_text. Floats are exact decimals of their shortest repr; strings are sequences of code points; tuples, custom encoders and sort_keys are not modelled."
  },
  {
   "property": "C28",
   "status": "proved",
   "theorems": [
    "C28_item_unwrap"
   ],
   "note": "Nested values of dict, list, str, int, float (as exact decimals), bool, date, naive time, datetime. Tuples, custom encoders, dict/list subclasses and values that are already Items are not modelled."
  },
  {
   "property": "C29",
   "status": "partial",
   "theorems": [
    "C29_strings_partial",
    "C29_literal_strings",
    "C29_comments",
    "C29_documents_partial",
    "C29_no_double_bracket",
    "C29_escape_refuted",
    "C29_header_refuted"
   ],
   "note": "Proved for every position: comments and literal strings contain no raw control character; basic strings none outside unicode escapes; an accepted document contains no control character that Python does not strip as white space, except directly after '[[..]'. The full statement is false (refuted): white space (incl. a line break) is accepted inside \\u escapes, and any character is accepted instead of the second bracket of an array-of-tables header. Not proved: a whole-document statement for the remaining control characters (VT, FF, FS..US)."
  },
  {
   "property": "C30",
   "status": "proved",
   "theorems": [
    "C30_peeking_does_not_move"
   ],
   "note": ""
  },
  {
   "property": "C31",
   "status": "proved",
   "theorems": [
    "C31_reader_slices",
    "C31_parser_reads_to_the_end"
   ],
   "note": ""
  },
  {
   "property": "C32",
   "status": "proved",
   "theorems": [
    "C32_step",
    "C32_history",
    "C32_slice",
    "C32_observed",
    "C32_matches_insert",
    "C32_sort_refuted",
    "C32_glued_refuted"
   ],
   "note": "Every history of append, extend, insert, del (index or slice), pop and clear with any index, on object identities, so that tables inserted twice are covered. Assignment and reverse raise NotImplementedError. Outside the statement and refuted: sort; the layout of a parsed array of tables without a final line end."
  },
  {
   "property": "C33",
   "status": "partial",
   "theorems": [
    "C33_reading_partial",
    "C33_objects_partial",
    "C33_blank_line_refuted",
    "C33_header_refuted",
    "C33_aot_refuted"
   ],
   "note": "Heap model of OutOfOrderTableProxy with object identity: any history of look-ups leaves the text (and every object) unchanged if no two parts of an out-of-order table share a sub-key; refuted otherwise (look-up inserts a blank line, respells a header, duplicates array-of-tables elements). Table names are not modelled; as_string's own look-ups (is_super_table of user-made tables) are not in the heap model."
  },
  {
   "property": "C34",
   "status": "proved",
   "theorems": [
    "C34_boolean_texts",
    "C34_both_booleans_read"
   ],
   "note": ""
  },
  {
   "property": "C35",
   "status": "partial",
   "theorems": [
    "C35_content_partial",
    "C35_ordinary_partial",
    "C35_dropped_refuted"
   ],
   "note": "An accepted array is rendered as its exact text whenever the strict parser reports no loss (C35_content_partial); from the text alone, if inline tables only follow equals signs, no space follows a date and no blank stands before a comma (C35_ordinary_partial). [{a=1] is accepted and dropped (refuted)."
  },
  {
   "property": "C36",
   "status": "proved",
   "theorems": [
    "C36_float_literals",
    "C36_float_roundtrip",
    "C36_zero_capital_E_refuted"
   ],
   "note": "Literals without underscores and with a lower-case e; IEEE rounding not modelled: a float is the exact decimal of its shortest repr. `0E5` is refused (defect, proved)."
  },
  {
   "property": "C37",
   "status": "partial",
   "theorems": [
    "C37_documents_partial",
    "C37_values_partial",
    "C37_strict",
    "C37_strings",
    "C37_keys",
    "C37_even_brackets",
    "C37_dropped_refuted",
    "C37_header_refuted"
   ],
   "note": "Soundness of the recogniser against an independent grammar. The full statement is false in two places, proved refuted: an unfinished inline table just before the closing bracket of an array, and a missing second closing bracket of an array-of-tables header. Without an opening brace and without '[[' the strict grammar holds (C37_strict)."
  },
  {
   "property": "C38",
   "status": "proved",
   "theorems": [
    "C38_values",
    "C38_unambiguous"
   ],
   "note": "Denote.v is the specification (texts and the Python values they stand for), including dotted keys that share a table. One class of TOML texts is left out of it: a capital E exponent after a lone zero, which tomlkit refuses (C36)."
  },
  {
   "property": "C39",
   "status": "partial",
   "theorems": [
    "C39_lookup_partial",
    "C39_values_partial",
    "C39_strings",
    "C39_context",
    "C39_plain_partial",
    "C39_contradiction_refuted"
   ],
   "note": "Every accepted text without [[..]] headers. The lines are those of Meaning.v (independent of the parser; with the two lax places of C37). Missing: arrays of tables; looking up a table whose parts are out of order may raise when its lines contradict each other (C39_contradiction_refuted), so errors other than a missing key are not excluded."
  },
  {
   "property": "C40",
   "status": "partial",
   "theorems": [
    "C40_documents_partial",
    "C40_unambiguous"
   ],
   "note": "Every document of Document.v parses to its dict. Missing: scattered (out-of-order) tables, [a.b] below an a given by dotted keys, a table opened after its sub-table, and inside an array of tables [[x]] a header-less table named x (tomlkit fails on some of those, C27); capital E after a lone zero (tomlkit refuses it, C36)."
  },
  {
   "property": "C41",
   "status": "partial",
   "theorems": [
    "C41_edited_partial",
    "C41_created",
    "C41_lines",
    "C41_multiline"
   ],
   "note": "Missing: parsed arrays outside the two shapes of C23 (false there: C23_*_refuted)."
  },
  {
   "property": "C42",
   "status": "proved",
   "theorems": [
    "C42_item",
    "C42_edits"
   ],
   "note": "Specification Denote.v. Equality of floats up to their decimal form, of dicts up to order (pyeq, PyVal.v)."
  },
  {
   "property": "C43",
   "status": "partial",
   "theorems": [
    "C43_edits_partial",
    "C43_new_partial",
    "C43_last_line_refuted",
    "C43_above_dotted_refuted",
    "C43_comment_refuted"
   ],
   "note": "Proved for all documents of Document.v made of whole lines (empty or ending with a line break) and all finite histories of the edits of Possible.v at any path through tables and arrays of tables: assignment of any Python value (dicts become tables, lists of dicts arrays of tables), to a new key or replacing a value, a table or an array of tables; deletion; AoT insertion and deletion; add of keys, comments and empty lines; comment() and indent() of an item; assignment, deletion and addition in inline tables and list operations in arrays, at any depth inside values. False without the final line break, for a dict replacing a value above a dotted key, and for comment() with a line break, with an exotic blank before \"#\", or on a boolean (refutations). Missing: a dict replacing an array of tables, a value replacing a table in the middle of the tables (false: C18), dropping the last element, reuse of the name of the surrounding top-level array (false: C27), edits of dotted tables in inline tables (false: C49) and of scattered tables, the documents Document.v leaves out."
  },
  {
   "property": "C44",
   "status": "partial",
   "theorems": [
    "C44_rewritten_partial"
   ],
   "note": "Proved for all documents of Document.v that are empty or end with a line break. Missing: a last line without line break; scattered tables and the other documents Document.v leaves out."
  },
  {
   "property": "C45",
   "status": "partial",
   "theorems": [
    "C45_deep_text",
    "C45_deep_equal_partial",
    "C45_deep_edits_partial",
    "C45_shallow_text",
    "C45_inline_refuted",
    "C45_aot_refuted",
    "C45_order_refuted",
    "C45_shallow_append_refuted"
   ],
   "note": "Parsed documents: deep copies have the same text and keys (all texts) and are equal in every modelled respect unless the text has both arrays of tables and indented headers. Refuted for edited documents: inline tables made from dicts lose the blank after commas, arrays of tables made from lists gain blank lines, the order of iteration changes; a shallow copy raises IndexError when a second sub-table of a super table is added. Object identity (no sharing) is not expressed."
  },
  {
   "property": "C46",
   "status": "partial",
   "theorems": [
    "C46_strokes_partial",
    "C46_text_partial"
   ],
   "note": "Every sequence of assignments of values, deletions, additions of values/comments/empty lines, comment() and indent() on values, edits in inline tables and arrays inside values, at any depth: one stroke per edit (Surgery.v), the rest of the text unchanged, and the result stands for the edited dict. Missing: edits that make or remove tables, additions to and deletions from header-less (super or dotted) tables, comment()/indent() of tables; documents outside Document.v."
  },
  {
   "property": "C47",
   "status": "partial",
   "theorems": [
    "C47_string_partial",
    "C47_plain_partial",
    "C47_string_refuted",
    "C47_float_partial",
    "C47_float_refuted",
    "C47_dates"
   ],
   "note": "Strings of one kind on one line, Python strings without quote, backslash and control characters, floats unless a signed operand gives a negative result, all dates and times. Refuted (defects): plain or literal operands with quotes or backslashes, multi-line strings, signed floats: --3.0."
  },
  {
   "property": "C48",
   "status": "partial",
   "theorems": [
    "C48_assign_partial",
    "C48_delete_partial",
    "C48_delete_last_partial",
    "C48_stale_refuted",
    "C48_new_refuted",
    "C48_part_refuted"
   ],
   "note": "One write through a fresh view to a key with a value in one part. Refuted (defects): further writes through the same view after a deletion, deletion of a key added through the view, new keys where the first part is a super table, keys whose table is in two parts."
  },
  {
   "property": "C49",
   "status": "partial",
   "theorems": [
    "C49_edits_partial",
    "C49_new_partial",
    "C49_dotted_refuted",
    "C49_wrong_kind"
   ],
   "note": "Proved for every TOML value text (Denote.v) and for tomlkit.inline_table(), and every sequence of assignments, deletions and additions of Python values in inline tables, and of list operations in arrays, at any depth through inline tables and arrays. False for tables that dotted keys make inside an inline table (refutation: the text is not TOML any more), and for additions to and deletions from arrays that are not tidy (C22_refuted): these need the hypothesis tidy (assignment and clear() do not). Missing: items (rather than Python values) as operands."
  },
  {
   "property": "C50",
   "status": "partial",
   "theorems": [
    "C50_document_partial",
    "C50_new_partial",
    "C50_value_partial",
    "C50_refuted"
   ],
   "note": "Proved for the documents and edits of C43 and the values and edits of C49: after any sequence of edits, unwrap() equals (Python equality) the dict the text stands for by Document.v/Denote.v, and re-reading gives it. Missing: what C43 and C49 leave out; C50_refuted shows three of these where memory and text disagree."
  },
  {
   "property": "C51",
   "status": "partial",
   "theorems": [
    "C51_methods_partial",
    "C51_new_partial",
    "C51_nothing_to_do",
    "C51_refuted"
   ],
   "note": "Every sequence of pop, popitem, clear, update, |= and setdefault mixed with the edits of C43, on documents made of whole lines or new. C51_nothing_to_do for every text that can be read. Missing: what C43 leaves out; emptying a table without a header and the order of popitem, where the claim is false (C51_refuted); inline tables."
  },
  {
   "property": "C52",
   "status": "partial",
   "theorems": [
    "C52_document_partial",
    "C52_array",
    "C52_tables",
    "C52_refuted"
   ],
   "note": "Arrays: every history of append, extend, insert, set, del, pop, clear, reverse on every parsed array. Arrays of tables: the same operations on any array of tables, on object identities, with tables, other items and unconvertible objects. Documents and tables: every history of additions, assignments and deletions of values under plain keys, with unconvertible arguments. Refuted (defects): adding a dotted key that exists raises and leaves the document with the key twice (not TOML); slice assignment to an array raises and leaves list and text different. Missing: table values, assignment over tables, keys of tables defined in several places."
  },
  {
   "property": "C53",
   "status": "partial",
   "theorems": [
    "C53_key_value",
    "C53_accepts_partial",
    "C53_array",
    "C53_boolean_partial",
    "C53_rest_refuted",
    "C53_array_refuted",
    "C53_boolean_refuted"
   ],
   "note": "Proved for every key = value line of the grammar, whatever follows it: names, value, the document made of the pair, its text (exact when no date is followed by a space and no blank precedes a comma); array() and array texts; booleans. False: key_value does not look at what follows the value (comments are dropped, a second pair or a stray bracket ignored), array(text) makes whatever value the text is, boolean(text) takes every other text as false."
  },
  {
   "property": "C54",
   "status": "partial",
   "theorems": [
    "C54_made",
    "C54_read",
    "C54_joined",
    "C54_joined_made",
    "C54_compared",
    "C54_document_partial",
    "C54_inline_partial",
    "C54_inline_made_partial",
    "C54_refuted"
   ],
   "note": "Keys: proved for all names and all key texts of the grammar. Documents: new documents; inline tables: empty ones, for pairs read by key_value and for keys made from a string (with items that may have been given a comment, which is not written). Refuted (defects): a dotted key made from names and appended to an inline table writes {a. = b = 1 and a line break, which is not TOML; a key from a list of one string has the text of the single key but is equal neither to it nor to the string. Missing: documents and inline tables with other entries, keys from a list of one string in documents."
  }
 ]
}
