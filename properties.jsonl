{"id": "C01", "title": "Lossless parse/serialise", "statement": "For every text s that tomlkit.parse accepts, parse(s).as_string() == s, byte for byte: comments, blank lines, indentation, quoting, number spelling, key spelling and table order all survive.", "quantifier": "every input string s, of any length and nesting depth", "why_tests_cant": "The style-preservation promise is over all documents; each example file fixes one layout. Whether some branch of the parser drops text can only be settled by following every branch.", "anchors": ["tomlkit/parser.py: Parser.parse, _parse_item, _parse_key_value, _parse_value, _parse_array, _parse_inline_table, _parse_table, _parse_aot", "tomlkit/container.py: Container.append, as_string, _render_table, _render_aot", "tomlkit/items.py: as_string methods"]}
{"id": "C02", "title": "Parsing always terminates", "statement": "For every text, tomlkit.parse / tomlkit.value / key parsing reaches a result or an exception after finitely many steps; no loop in the parser can spin without consuming input.", "quantifier": "every input string, including truncated and hostile ones", "why_tests_cant": "Non-termination needs a particular malformed suffix; no finite test list excludes it.", "anchors": ["tomlkit/parser.py: all loops", "tomlkit/source.py: Source.inc, consume"]}
{"id": "C03", "title": "Only TOMLKitError comes out of parse", "statement": "For every text, if tomlkit.parse raises, the exception is a TOMLKitError subclass (so callers can catch one class); builtin errors such as OverflowError, IndexError, KeyError or AssertionError never escape.", "quantifier": "every input string", "why_tests_cant": "An escaping builtin exception needs one odd literal; tests enumerate only known bad inputs.", "anchors": ["tomlkit/parser.py: Parser._parse_value, _parse_table, _parse_inline_table", "tomlkit/_utils.py: parse_rfc3339", "tomlkit/exceptions.py"]}
{"id": "C04", "title": "Error positions point at the failing character", "statement": "When a ParseError is raised with the reader at offset i of the text, its line is 1 + the number of line breaks before i and its col is the distance from the start of that line.", "quantifier": "every text and every offset in it", "why_tests_cant": "Line/column arithmetic has boundary cases (end of input, CRLF, exotic separators) at every offset of every text.", "anchors": ["tomlkit/source.py: Source.parse_error, _to_linecol"]}
{"id": "C05", "title": "Basic string values survive quoting", "statement": "For every Python string v, the item made from v (tomlkit.item(v) / tomlkit.string(v)) renders as a TOML basic string that parses back to exactly v.", "quantifier": "every Python string (any code points, control characters, quotes, backslashes)", "why_tests_cant": "Infinite value domain; escaping bugs hide in rare characters and character combinations.", "anchors": ["tomlkit/_utils.py: escape_string, _compact_escapes, _unicode_escape", "tomlkit/items.py: String.from_raw, String.as_string, StringType", "tomlkit/parser.py: _parse_string, _parse_escaped_char, _peek_unicode"]}
{"id": "C06", "title": "Multiline basic string values survive quoting", "statement": "For every Python string v, tomlkit.string(v, multiline=True) renders as a multi-line basic string that parses back to exactly v.", "quantifier": "every Python string, in particular runs of quotes and leading/trailing newlines", "why_tests_cant": "Needs all combinations of quote runs, newlines and backslashes at the string's ends.", "anchors": ["tomlkit/_utils.py: escape_string", "tomlkit/items.py: StringType.escaped_sequences, String.from_raw", "tomlkit/parser.py: _parse_string"]}
{"id": "C07", "title": "Literal strings: rejected or exact", "statement": "For every Python string v, tomlkit.string(v, literal=True) (single- or multi-line) either raises InvalidStringError or renders to a token that parses back to exactly v.", "quantifier": "every Python string, both literal styles", "why_tests_cant": "Infinite domain; the check list of invalid sequences must match what the parser can read back.", "anchors": ["tomlkit/items.py: StringType.invalid_sequences, String.from_raw", "tomlkit/parser.py: _parse_string"]}
{"id": "C08", "title": "Escaping is deterministic and clean", "statement": "escape_string gives the same output whatever the iteration order of the set of escape sequences (hash seed), and the output contains no raw control character (other than those deliberately allowed) and no unescaped quote.", "quantifier": "every string and every iteration order of the escape set", "why_tests_cant": "Set order depends on the process hash seed; tests run with one order.", "anchors": ["tomlkit/_utils.py: escape_string", "tomlkit/items.py: StringType.escaped_sequences"]}
{"id": "C09", "title": "String tokens are kept verbatim", "statement": "Whenever a string value (any of the four styles) is parsed from a text, as_string() of the resulting item is exactly the source slice that was read.", "quantifier": "every text and every string token in it", "why_tests_cant": "Needs all escapes, quote runs and newline trimming rules at once.", "anchors": ["tomlkit/parser.py: _parse_string, _parse_escaped_char", "tomlkit/items.py: String.as_string"]}
{"id": "C10", "title": "Integers survive writing", "statement": "For every int n, tomlkit.item(n).as_string() parses back to the integer n, and the text is kept.", "quantifier": "every integer (unbounded)", "why_tests_cant": "Unbounded domain, sign and leading-zero rules.", "anchors": ["tomlkit/items.py: item, Integer", "tomlkit/parser.py: _parse_number"]}
{"id": "C11", "title": "Integer literals denote their value", "statement": "A decimal/hex/octal/binary literal made of digits with underscores strictly between digits is accepted and denotes the positional value of its digits; a literal with a leading zero, or with an underscore not between two digits, is rejected.", "quantifier": "every digit string, base and placement of underscores", "why_tests_cant": "Infinite family of literals; the regexp/lookaround logic has boundary positions everywhere.", "anchors": ["tomlkit/parser.py: _parse_number"]}
{"id": "C12", "title": "Arithmetic on parsed integers stays valid TOML", "statement": "If x is a parsed or created integer item and r = x op y is an integer result, the item r renders as a TOML integer literal denoting r.", "quantifier": "every literal spelling of x and every integer result r", "why_tests_cant": "Result sign and original spelling interact; infinite combinations.", "anchors": ["tomlkit/items.py: Integer.__init__, Integer._new, wrap_method"]}
{"id": "C13", "title": "Dates survive writing", "statement": "For every valid datetime.date d, the text of tomlkit.item(d) parses back to d; and tomlkit.date(raw) accepts a yyyy-mm-dd text exactly when it is a real calendar day (leap years included).", "quantifier": "every calendar date and every candidate triple", "why_tests_cant": "3.6 million dates and all invalid triples, with leap-year rules.", "anchors": ["tomlkit/_utils.py: parse_rfc3339, RFC_3339_DATE", "tomlkit/items.py: item, Date", "tomlkit/api.py: date"]}
{"id": "C14", "title": "Times survive writing", "statement": "For every naive datetime.time t (microsecond resolution), the text of tomlkit.item(t) parses back to t.", "quantifier": "every time of day, every microsecond", "why_tests_cant": "86.4 billion values; fraction padding/truncation logic.", "anchors": ["tomlkit/_utils.py: parse_rfc3339, RFC_3339_TIME", "tomlkit/items.py: item, Time"]}
{"id": "C15", "title": "Datetimes and offsets survive writing", "statement": "For every datetime dt that is naive or has a whole-minute UTC offset, the text of tomlkit.item(dt) parses back to the same fields and the same offset.", "quantifier": "every datetime and every offset in (-24h, 24h)", "why_tests_cant": "Sign, zero offset -> Z rewriting and fraction handling over a huge domain.", "anchors": ["tomlkit/_utils.py: parse_rfc3339, RFC_3339_DATETIME", "tomlkit/items.py: item, DateTime"]}
{"id": "C16", "title": "Any string can be a key", "statement": "For every Python string k, the key created from k renders as a TOML key (bare or quoted) that parses back to the single key k, never to a dotted key.", "quantifier": "every Python string, including the empty one and ones with dots, spaces, quotes", "why_tests_cant": "Infinite domain of keys.", "anchors": ["tomlkit/items.py: SingleKey.__init__", "tomlkit/parser.py: _parse_key, _parse_bare_key, _parse_quoted_key", "tomlkit/_utils.py: escape_string"]}
{"id": "C17", "title": "A container is an ordered map under any history", "statement": "After any sequence of adds, assignments and deletions of plain values on a document or table, membership, lookup, length and iteration order agree with a plain ordered dictionary subjected to the same sequence.", "quantifier": "every finite history of operations from an empty (or any consistent) container", "why_tests_cant": "The index map, body list and shadow dict must agree after every history; tests try a few.", "anchors": ["tomlkit/container.py: Container.append, __setitem__, remove, item, _insert_at, _replace_at, __len__, __iter__"]}
{"id": "C18", "title": "Deleting a key removes exactly its own text", "statement": "del doc[key] on a plain entry leaves every other character of the serialised document unchanged: the output is the old output with that entry's line removed.", "quantifier": "every document and every plain key in it", "why_tests_cant": "Must hold for all surrounding content.", "anchors": ["tomlkit/container.py: Container.remove, as_string"]}
{"id": "C19", "title": "Replacing a value keeps the rest of the line and document", "statement": "doc[key] = v for an existing plain key changes only the value's text: position, key spelling, separator, indentation, trailing comment and every other entry are unchanged.", "quantifier": "every document, every plain key, every plain new value", "why_tests_cant": "Must hold for all surrounding content and trivia.", "anchors": ["tomlkit/container.py: Container.__setitem__, _replace_at, _render_simple_item"]}
{"id": "C20", "title": "New plain keys never land inside a sub-table", "statement": "Adding a new plain key to a document/table that already contains [tables] places its line before the first table header, so it still belongs to the parent when re-read; the text of all existing entries is kept in order.", "quantifier": "every container and every new key/value", "why_tests_cant": "Must hold for every arrangement of values, blank lines, deleted entries and tables.", "anchors": ["tomlkit/container.py: Container.append, _get_last_index_before_table, _insert_at"]}
{"id": "C21", "title": "Duplicate definitions are refused", "statement": "Adding a key that is already bound to a plain value raises KeyAlreadyPresent and leaves the container unchanged; in no history does a container hold two plain entries for one key.", "quantifier": "every container reachable by any history, every key", "why_tests_cant": "A second definition can arrive through many paths (append, insert, merge).", "anchors": ["tomlkit/container.py: Container.append, _raw_append"]}
{"id": "C22", "title": "An array's list view and its text never diverge", "statement": "After any history of append/insert/item assignment/single deletion/clear on an array, the values rendered by as_string are, in order, exactly the elements seen by indexing and len().", "quantifier": "every parsed or created array and every history of those operations", "why_tests_cant": "List, group list and index map are three structures kept in sync by hand.", "anchors": ["tomlkit/items.py: Array.insert, __delitem__, __setitem__, _reindex, _group_values, clear"]}
{"id": "C23", "title": "Edited arrays keep valid comma placement", "statement": "After any history of insertions, assignments and deletions, the rendered array has exactly one comma between consecutive values and none before the first.", "quantifier": "every array and every history", "why_tests_cant": "Comma ownership depends on layout (spaces before commas, comments) and on every earlier edit.", "anchors": ["tomlkit/items.py: Array.insert, __delitem__, _group_values"]}
{"id": "C24", "title": "Slice deletion and sorting keep list and text together", "statement": "del a[i:j] and a.sort() change the list view and the rendered text of an array in the same way.", "quantifier": "every array and every slice", "why_tests_cant": "Negative and omitted bounds, all lengths.", "anchors": ["tomlkit/items.py: Array.__delitem__, _CustomList"]}
{"id": "C25", "title": "TOMLFile keeps line endings", "statement": "Reading a file whose line breaks are all LF (or all CRLF) and writing a document back through the same TOMLFile produces a file whose line breaks are all LF (all CRLF); writing back unmodified text is the identity; mixed files are written unchanged.", "quantifier": "every file content and every document written", "why_tests_cant": "Placement of \\r and \\n is arbitrary.", "anchors": ["tomlkit/toml_file.py: TOMLFile.read, write"]}
{"id": "C26", "title": "Unicode escapes decode to the named scalar value", "statement": "\\uXXXX and \\UXXXXXXXX in a basic string are accepted exactly when the digits are hexadecimal and name a Unicode scalar value, and decode to that code point.", "quantifier": "every 4- or 8-character sequence after the escape", "why_tests_cant": "2^16 / 2^32 sequences plus all non-hex ones.", "anchors": ["tomlkit/parser.py: _peek_unicode, _parse_escaped_char"]}
{"id": "C27", "title": "loads(dumps(d)) == d", "statement": "For every nested dict d of strings, integers, booleans, dates/times, lists and dicts, tomlkit.parse(tomlkit.dumps(d)) unwraps to d.", "quantifier": "every finite nested dict, any depth and any keys", "why_tests_cant": "Layout decisions (super tables, arrays of tables, inline tables) compose arbitrarily.", "anchors": ["tomlkit/api.py: dumps, parse", "tomlkit/items.py: item", "tomlkit/container.py: Container.append, as_string", "tomlkit/parser.py"]}
{"id": "C28", "title": "item(v).unwrap() == v", "statement": "Converting a Python value to a TOML item and unwrapping it returns an equal pure Python value.", "quantifier": "every nested Python value of supported types", "why_tests_cant": "Arbitrary nesting of lists and dicts.", "anchors": ["tomlkit/items.py: item, unwrap methods", "tomlkit/container.py: Container.unwrap"]}
{"id": "C29", "title": "Control characters are refused", "statement": "A raw control character (other than tab, and line breaks where allowed) inside a string or a comment makes the parse fail.", "quantifier": "every text, position and control character", "why_tests_cant": "All positions in all texts.", "anchors": ["tomlkit/parser.py: _parse_string, _parse_comment_trail"]}
{"id": "C30", "title": "Peeking does not move the reader", "statement": "Look-ahead (peek of a value, of a table header, of a unicode escape) and failed boolean/string reads leave the reader position unchanged.", "quantifier": "every reader state", "why_tests_cant": "All states, including end of input.", "anchors": ["tomlkit/source.py: _State", "tomlkit/parser.py: _peek, _peek_table, _peek_unicode, _parse_bool"]}
{"id": "C31", "title": "Reader slices tile the input", "statement": "The reader only moves forward, never past the end, and the text extracted between marker and position is exactly that slice of the input.", "quantifier": "every sequence of reader operations on every input", "why_tests_cant": "All interleavings of inc/consume/mark/extract.", "anchors": ["tomlkit/source.py: Source.inc, inc_n, consume, mark, extract"]}
{"id": "C32", "title": "AoT list view and body never diverge", "statement": "After any history of append/insert/delete on an array of tables, len, indexing and the rendered tables agree with a plain list under the same history.", "quantifier": "every history and index (negative and out of range included)", "why_tests_cant": "Two parallel lists kept in sync by hand.", "anchors": ["tomlkit/items.py: AoT.insert, __delitem__, __getitem__, __len__"]}
{"id": "C33", "title": "Reading a document does not change it", "statement": "Looking up keys (doc[k], k in doc, iteration, unwrap) never changes doc.as_string().", "quantifier": "every parsed document and every sequence of reads", "why_tests_cant": "Out-of-order tables build proxies sharing objects with the document.", "anchors": ["tomlkit/container.py: Container.item, OutOfOrderTableProxy.__init__", "tomlkit/items.py: AoT.insert"]}
{"id": "C34", "title": "Booleans are exactly true/false", "statement": "The value parser yields a boolean only for the exact texts true and false, and the item renders back to that text.", "quantifier": "every text", "why_tests_cant": "All near-miss prefixes.", "anchors": ["tomlkit/parser.py: _parse_bool", "tomlkit/items.py: Bool.as_string"]}
{"id": "C35", "title": "Accepted arrays keep all their content", "statement": "If an array literal is accepted, every value written between its brackets is an element of the result; malformed elements are never silently dropped.", "quantifier": "every text", "why_tests_cant": "Needs the error-recovery path of every nested construct.", "anchors": ["tomlkit/parser.py: _parse_array, _parse_inline_table"]}
{"id": "C36", "title": "Float literals and float texts", "statement": "A decimal float literal (digits, a fraction and/or an exponent, optional sign) is accepted with its positional value, and the text of tomlkit.item(x) for a float x parses back to a float equal to x.", "quantifier": "every float literal of any length; every float (as the exact decimal of its shortest repr), infinities and NaN", "why_tests_cant": "Unbounded digits, exponents and notations chosen by repr.", "anchors": ["tomlkit/parser.py: _parse_value, _parse_number", "tomlkit/items.py: item, Float"]}
{"id": "C37", "title": "Accepted texts have the layout of TOML", "statement": "If tomlkit.parse accepts a text, the text is a sequence of lines (blank, comment, key = value, table header) whose keys, strings, numbers, arrays and inline tables have the layout TOML prescribes: for example no trailing comma in an inline table, no value without a separator, one statement per line, no unclosed bracket. The same for tomlkit.value.", "quantifier": "every text", "why_tests_cant": "A recogniser accepts an infinite set; tests can only show single texts refused.", "anchors": ["tomlkit/parser.py: Parser.parse, _parse_item, _parse_key_value, _parse_value, _parse_array, _parse_inline_table, _parse_string, _parse_table, _parse_comment_trail", "tomlkit/api.py: parse, value"]}
{"id": "C38", "title": "Every TOML value is accepted, with its meaning", "statement": "Let w be a value text of TOML 1.0 (a string of any of the four kinds with escapes and line continuations, an integer in any base with grouped digits, a float, a boolean, a date, time or date-time, an array with white space, comments and an optional last comma, or an inline table with bare, quoted and dotted keys, nested to any depth) standing for the Python value v. Then tomlkit.value(w) succeeds and unwrap() of the result is exactly v. Hence no text stands for two values.", "quantifier": "every TOML value text (except a capital E exponent after a lone zero, see C36)", "why_tests_cant": "Unbounded nesting, lengths, layouts and comments.", "anchors": ["tomlkit/api.py: value", "tomlkit/parser.py: Parser._parse_value, _parse_string, _parse_number, _parse_array, _parse_inline_table, _parse_key", "tomlkit/_utils.py: parse_rfc3339", "tomlkit/items.py: unwrap"]}
{"id": "C39", "title": "A parsed document says what its lines say", "statement": "After doc = tomlkit.parse(s) (s without arrays of tables), looking up doc[k1][k2]... finds a value exactly where one line of s ('names = value' under the last '[names]' header, with dotted and quoted names spelled out) puts it, equal to tomlkit.value of the value's text; a table exactly where some line mentions it or something below it; and a missing key otherwise. Nothing is lost, duplicated or moved to another table, whatever the order and nesting of the headers. A value does not depend on what surrounds it, and a string is the one its escapes spell.", "quantifier": "every accepted text without arrays of tables; every path", "why_tests_cant": "Any number of lines, headers in any order and nesting, implicit and out-of-order tables.", "anchors": ["tomlkit/parser.py: Parser.parse, _parse_item, _parse_key, _parse_table, _parse_value", "tomlkit/container.py: Container.append, item, OutOfOrderTableProxy", "tomlkit/api.py: parse, value"]}
{"id": "C40", "title": "Every TOML document is accepted, with its meaning", "statement": "If a text is a TOML document standing for a dict (lines 'key = value' with dotted and quoted keys, comments, blank lines, [table] headers with or without a parent header, [[arrays of tables]] with sub-tables, any value syntax of TOML 1.0), then tomlkit.parse(text) succeeds and unwrap() of the result is exactly that dict, in order. So a text has one meaning only.", "quantifier": "every TOML document, of any size and nesting", "why_tests_cant": "Unbounded documents, nesting, layouts and value spellings.", "anchors": ["tomlkit/parser.py: Parser.parse, _parse_item, _parse_key_value, _parse_comment_trail, _parse_table, _parse_aot, _peek_table", "tomlkit/container.py: Container.append, _handle_dotted_key, unwrap", "tomlkit/items.py: Table.append, Table.unwrap, AoT.unwrap"]}
{"id": "C41", "title": "An edited array reads back as its list", "statement": "After any history of list operations on an array (created empty, or parsed in one of the two shapes of C23, or rendered multi-line, or written line by line with add_line and comments), the array's text is TOML for the list of its values: if the texts of the values stand for vs, the text of the array stands for vs, and tomlkit.value of it succeeds and unwraps to vs.", "quantifier": "every history of list operations; every values, indentation and comments", "why_tests_cant": "Unbounded histories, nesting and layouts.", "anchors": ["tomlkit/items.py: Array.insert, __setitem__, __delitem__, add_line, as_string, multiline", "tomlkit/api.py: value", "tomlkit/parser.py: Parser._parse_array"]}
{"id": "C42", "title": "What is written for a Python value is TOML for that value", "statement": "For every Python value (nested dicts without repeated keys, lists, strings, ints, floats, bools, dates and times), tomlkit.item(value) succeeds, and when the item is one that is written on one line, its text stands, by the definition of TOML and not only for tomlkit's own parser, for a value equal to the original; tomlkit.value reads it back so. An array edited with Python values by any history of list operations is TOML for the list those operations make.", "quantifier": "every Python value; every history of list operations", "why_tests_cant": "Unbounded nesting, string contents, float and integer magnitudes, and edit histories.", "anchors": ["tomlkit/items.py: item, String.from_raw, Integer, Float, Array, InlineTable, Key.as_string", "tomlkit/_utils.py: escape_string", "tomlkit/api.py: value"]}
{"id": "C43", "title": "Read, edit, write", "statement": "Parse a TOML document, then perform any sequence of assignments doc[..][..][k] = v (v a value, a dict that becomes a table, or a list of dicts that becomes an array of tables; k new or replacing what was there), deletions del doc[..][..][k], insertions into and deletions from arrays of tables, additions t.add(k, v), t.add(comment(s)), t.add(nl()), and calls of t[k].comment(s) and t[k].indent(n), in the document, its tables and the elements of its arrays of tables, then dump: every edit succeeds, the text written is a TOML document, and it stands for the dict that the same edits make of the original dict, so that nothing else changes; parsing it again gives that dict. The same starting from a new document.", "quantifier": "every TOML document; every finite sequence of edits, keys, paths and Python values", "why_tests_cant": "Unbounded documents, layouts, values and edit histories; each edit rewrites part of a text whose other parts must keep their meaning.", "anchors": ["tomlkit/container.py: Container.__setitem__, __delitem__, append, remove, _insert_at, _insert_after, _replace_at, as_string", "tomlkit/items.py: AbstractTable.__setitem__, __delitem__, AoT.__getitem__, AoT.insert, AoT.__delitem__, item, Table.append, Item.comment, Item.indent, Table.indent", "tomlkit/parser.py: Parser.parse", "tomlkit/api.py: comment, nl"]}
{"id": "C44", "title": "What is written after reading is TOML for the same dict", "statement": "For every TOML document, dumps(parse(text)) is a TOML document that stands for the same dict as the text.", "quantifier": "every TOML document", "why_tests_cant": "Unbounded documents and layouts.", "anchors": ["tomlkit/parser.py: Parser.parse", "tomlkit/container.py: Container.as_string, _render_table, _render_aot, _render_simple_item"]}
{"id": "C45", "title": "Copies of documents", "statement": "For every text that parse accepts, copy.deepcopy(doc) and pickle.loads(pickle.dumps(doc)) give a document that is written as the same text, iterates over the same keys in the same order, has the same values and behaves in the same way under later edits; copy.copy(doc) has the same text, keys and values.", "quantifier": "every accepted text; every later sequence of edits", "why_tests_cant": "Unbounded documents; the copy is rebuilt from its parts (arrays regrouped, dicts refilled from the body, arrays of tables re-appended), and each rebuilding must agree for every layout.", "anchors": ["tomlkit/items.py: Item.__reduce_ex__, _getstate, Array._group_values, AoT.__init__", "tomlkit/container.py: Container.__reduce_ex__, __setstate__, __copy__"]}
{"id": "C46", "title": "An edit changes only its own stretch of text", "statement": "After parsing a TOML document, each of these calls changes one stretch of what dumps() writes and leaves every other character as it was: t[k] = v for a key with a value (only the text of the value on k's line), t[k] = v or t.add(k, v) for a new key (one new line `k = v`), del t[k] (k's line goes), t.add(comment(s)) and t.add(nl()) (one new line), t[k].comment(s) (only what follows the value on k's line), t[k].indent(n) (only the blanks before k).", "quantifier": "all TOML documents, all tables, elements of arrays of tables at any depth, all keys, values and comments, all finite sequences of such edits", "why_tests_cant": "The layout around an edit (comments, blank lines, indentation, CRLF, neighbouring tables) has unboundedly many forms, and an edit may disturb what earlier edits left behind.", "anchors": ["tomlkit/container.py: Container.append, _replace_at, remove, _insert_at, _render_table, _render_simple_item", "tomlkit/items.py: Table.append, Item.comment, Item.indent, AbstractTable.__setitem__, __delitem__", "tomlkit/api.py: dumps"]}
{"id": "C47", "title": "Items computed from items are written as TOML for the result", "statement": "Adding two string items (or a string item and a Python string), doing arithmetic on a float item, dividing an integer item, shifting or replacing parts of a date, time or datetime item gives an item whose Python value is the result of the operation and whose text is a TOML value for this result.", "quantifier": "all string, float, integer, date, time and datetime items however written, all operands and results", "why_tests_cant": "The text of the new item is put together from the text of the old one (its quotes, escapes, sign); whether it still stands for the new value depends on the spelling of both operands, of which there are unboundedly many.", "anchors": ["tomlkit/items.py: String.__add__, String._new, Float._new, Integer._new, Integer.__truediv__, Date._new, Time._new, DateTime._new"]}
{"id": "C48", "title": "Writing through a table defined in several places", "statement": "For a table a that a document defines in several places (dotted keys, or [a.b] ... [a]), t = doc['a']; t[x] = v changes, for a key that has a value, only the text of that value, and del t[x] removes only what defines x, in whichever place x is; the object t can be used on.", "quantifier": "all documents, all ways to spread a table over the document, all keys and values, all sequences of writes through one view", "why_tests_cant": "Which of the places is written to depends on how the table is spread over the document; the ways are unbounded, and so are the histories of one view.", "anchors": ["tomlkit/container.py: OutOfOrderTableProxy.__init__, __setitem__, __delitem__, _remove_table, Container._remove_at"]}
{"id": "C49", "title": "Editing inline tables and arrays inside values", "statement": "Let v = tomlkit.value(text) for any TOML value text, or v = tomlkit.inline_table(). Assigning, deleting and adding keys in the inline tables of v (v[q1]...[qn][k] = x, del, append), and the list operations on the arrays of v (append, extend, insert, assignment, del, pop, clear, reverse), at any depth through inline tables and arrays, succeed for every key and value; the text of v is then a TOML value for exactly the value the same operations make of the old one, and reading it again gives this value.", "quantifier": "all values however written (dotted keys, blanks, comments, line breaks, nesting), all keys, all Python values, all finite sequences of operations", "why_tests_cant": "Commas and blanks are decided at printing time from which entries of the body have keys and which come last; histories of additions and deletions are unbounded, and so are the texts.", "anchors": ["tomlkit/items.py: InlineTable.append, as_string, __setitem__, Table.__setitem__, remove", "tomlkit/api.py: inline_table, value", "tomlkit/container.py: Container.append, remove, _replace_at", "tomlkit/items.py: Array.insert, __setitem__, __delitem__, _reindex, clear, as_string"]}
{"id": "C50", "title": "The document in memory is the document written", "statement": "Read a TOML document, or start a new one, and edit it in any way (assign, add, delete, replace by tables, comment, edit inside inline tables and arrays). At every moment doc.unwrap() equals, as a Python dict, the dict that the text doc.as_string() stands for, and what parse(doc.as_string()).unwrap() gives: the program never sees a value that it would not write, and never writes one that it does not see. The same for a single value edited in place.", "quantifier": "every document (or value) and every finite sequence of edits, checked after any prefix of it", "why_tests_cant": "the document is kept twice, as a list of entries that is rendered and as an index and a dict that are read; that the two agree is an invariant over all documents and all histories of edits, dotted keys and scattered tables included, and a test sees a few of them", "anchors": ["tomlkit/container.py: Container.__setitem__, append, remove, _replace, _replace_at, _insert_at, unwrap, as_string, _map, OutOfOrderTableProxy", "tomlkit/items.py: Table, InlineTable, Array, AoT, unwrap", "tomlkit/api.py: parse, dumps, value, document"]}
{"id": "C51", "title": "The dict methods behave as those of a dict, and so does the text", "statement": "pop (with or without a default), popitem, clear, update (and |=) and setdefault, called on a document, a table or an element of an array of tables, in any order and mixed with other edits, return values equal to what a Python dict returns and leave the dict a Python dict would have, both in memory and in the text written; a missing key without default is a KeyError, and a call with nothing to do changes nothing.", "quantifier": "every document, every table in it, every finite sequence of calls", "why_tests_cant": "the methods are inherited mixins composed of __getitem__, __setitem__ and __delitem__, which edit lists of entries with comments, blanks, headers and an index; agreement with a dict after every mixture of calls is an invariant, not a finite set of cases", "anchors": ["tomlkit/_types.py: _CustomDict", "tomlkit/container.py: Container.setdefault, __getitem__, __setitem__, __delitem__, __iter__", "tomlkit/items.py: AbstractTable.setdefault, __iter__", "tomlkit/exceptions.py: NonExistentKey"]}
{"id": "C52", "title": "A refused operation changes nothing", "statement": "An operation on a document, table or array that raises (the key exists or is missing, the index is out of range, the object given cannot be converted to TOML, the assignment is unsupported) leaves the document, table or array as it was, in what is read from it and in what is written; so after any history in which some operations were refused, the object is what the other operations alone have made of it. extend keeps what it had appended before the object it could not convert.", "quantifier": "every parsed document, table and array, every history of operations with any arguments, refused or not", "why_tests_cant": "each operation changes a list, an index and a dict one after the other, and may raise between two of these changes; that it does not, in any state that can be reached, is an invariant over all histories", "anchors": ["tomlkit/container.py: Container.append, _raw_append, _insert_at, remove, __setitem__, _replace_at, _handle_dotted_key, _validate_out_of_order_table", "tomlkit/items.py: Array.insert, __setitem__, __delitem__, item"]}
{"id": "C53", "title": "Keys, values and pairs from raw text", "statement": "tomlkit.key_value(text) of a line \"key = value\" of the TOML grammar (a simple or dotted key, any value, blanks around, perhaps a comment) returns the key with the names the grammar gives it and an item that unwraps to the value the text stands for; appended to a new document they give a document that reads as the (nested) dict of this one pair and whose text is the key, the equal sign and the value as in the source and is a TOML document for the same dict. tomlkit.array(text) of an array text has the items the text stands for, array() is empty; tomlkit.boolean(text) of true or false is that boolean, with this text. Text that is not of the kind is refused.", "quantifier": "every key, value text, spacing and following text of the TOML grammar, without bounds on nesting or length; for refusal, every text", "why_tests_cant": "the keys, the values and what may follow form infinite recursive languages; that each is read as the value the grammar gives it and written back so that it means the same is an induction over both", "anchors": ["tomlkit/api.py: key_value, array, boolean", "tomlkit/parser.py: Parser._parse_key_value, _parse_key, _parse_value", "tomlkit/container.py: Container.append, _handle_dotted_key, as_string"]}
{"id": "C54", "title": "Keys made, joined, compared and used", "statement": "key(name) and key([names]) give a key with exactly these names, whatever strings they are, whose text is a TOML key for them; a.concat(b) of keys made from names or read by key_value has the names of a and then of b, its text is a TOML key for them, and joining is associative. Two keys are equal just when both are single or both dotted and their names are the same, however they are spelled; a single key equals the string that is its name; equal keys have equal hashes. Appending a value under such a key to a new document or inline table writes the key's text, an equal sign and the value's text, which is TOML for the dict with these names nested and reads back as such.", "quantifier": "every string and list of strings as names, every key text of the TOML grammar, every Python value written as a value", "why_tests_cant": "names are arbitrary strings, dotted keys have any number of parts, each part makes a table around the next, and the text of a part depends on escaping", "anchors": ["tomlkit/api.py: key, key_value", "tomlkit/items.py: Key.concat, SingleKey, DottedKey, __eq__, __hash__, InlineTable.append, InlineTable.as_string", "tomlkit/container.py: Container.append, _handle_dotted_key, _render_table"]}
