# Formal model of tomlkit (0.12.4) in Rocq/Coq 8.16.1 — design

## Approach
A shallow executable model, function by function, of tomlkit's core: strings are
lists of code points (`list N`), Python exceptions are values of the type `exn`, the
parser is a state monad over a zipper of the source text, the document is an
immutable tree (a Python mutator becomes a function returning the new tree).  Where
object identity is the point (arrays of tables, reads through out-of-order tables)
there is a separate model with identities or a heap.  Loops become structural
recursion on the remaining input or recursion on explicit fuel; running out of fuel
is a distinguished error, and C02 proves that it never happens.

Model files (under `rocq/theories/`; every definition cites the lines it models):

| file | models |
|------|--------|
| `Base.v` | Python `str` helpers, character classes (`toml_char.py`), exceptions |
| `Source.v` | `source.py`: `Source`, `_State`, `inc`, `mark`, `extract`, `consume`, `_to_linecol` |
| `Utils.v` | `_utils.py`: `escape_string`, `parse_rfc3339` and its regular expressions; Python's `int(s, base)`, `float(s)`, `date`/`time`/`datetime` constructors |
| `Items.v` | `items.py`: data types, keys (`SingleKey`, `DottedKey`, `concat`), `String.from_raw`, `as_string`, trivia, arithmetic `_new` of `Integer` |
| `Container.v` | `container.py`: `append`, `_raw_append`, `_handle_dotted_key`, `_merge/_replace_with_aot`, `_insert_at/_insert_after`, `remove`, `_replace_at`, `item`, `__contains__`, `validate_out_of_order_table`, `OutOfOrderTableProxy` (as a value), rendering |
| `Arrays.v` | `items.py` `Array`: grouping of tokens, `__len__/get/set/del/insert`, `add_line`, `clear`, multi-line rendering |
| `Parser.v` | `parser.py`, all of it |
| `Api.v` | `api.py` (`parse`, `value`, `key_value`-style creators, `dumps` of dicts), `toml_file.py` |
| `AotObj.v` | `items.py` `AoT` as list + body over object identities |
| `PyItem.v` | `items.item()` and `unwrap()` for nested Python values |
| `Heap.v` | `OutOfOrderTableProxy` and look-ups over a heap of objects |
| `Lookup.v` | `doc[k1][k2]...` |
| `Edit.v` | `doc[k1][k2]...[k] = v`, `del doc[k1]...[k]`, `.add(k, v)`, `.add(comment(s))`, `.add(nl())`, `t[k].comment(s)`, `t[k].indent(n)`, insertion into and deletion from arrays of tables: `AbstractTable.__setitem__`/`__delitem__`, `Table.append`, `Container.__setitem__`/`add`, `Item.comment`/`indent`, the way to the table through tables and arrays of tables. Not modelled: a way through an `OutOfOrderTableProxy` or an inline table (`UnmodelledE`) |
| `Derived.v` | `String.__add__`, `Float._new`, `Integer.__truediv__`, `Date/Time/DateTime._new` |
| `Views.v` | `OutOfOrderTableProxy.__init__`, `__setitem__`, `__delitem__`, `_remove_table`, `Container._remove_at`; the view is used while nothing but its tables is edited |
| `Mapping.v` | `_CustomDict` (the `MutableMapping` mixins `pop`, `popitem`, `clear`, `update`, `__ior__`), `setdefault` of `Container` and `AbstractTable`, on top of Edit.v and Lookup.v |
| `Failing.v` | `Container.append`, `_raw_append`, `_insert_at`, `remove`, `__setitem__`, `_replace_at` (values), `_handle_dotted_key`; `Array.insert`, `__setitem__` (index and slice), `__delitem__`, `append`, `extend`, `pop`, `reverse`, `clear`, once more, as sequences of changes that exceptions may interrupt |
| `FailAot.v` | `AoT.insert`, `__delitem__`, `__setitem__`, and the MutableSequence mixins over them, once more, as sequences of changes that exceptions may interrupt |
| `Keying.v` | `api.key`, `Key.__eq__`, `Key.__hash__`, `InlineTable.append` with a key |
| `Raw.v` | api.py `key_value`, `boolean`, `array(raw)`, and `doc.append(key, item)` on a new document |
| `Copy.v` | `Item.__reduce_ex__` with every `_getstate`, `Container.__reduce_ex__`/`__setstate__` (deepcopy and pickle), `Container.__copy__`. Not modelled: object identity of the copy; `__copy__` of items |

Specification files, mentioning no model definitions other than data types:
`Grammar.v` (layout of TOML texts), `Meaning.v` (what lines, keys and strings say),
`Ordinary.v` (texts of an ordinary shape), `ListSpec.v` (Python lists and slices), `OMap.v` (ordered maps), `PyVal.v` (Python
values), and small definitions at the head of the `Prop*.v` files.

`Prop*.v` contain the property theorems and examples that meet their hypotheses,
each followed by `Print Assumptions`; everything else is lemmas.

## Per-property plan
- C01 parse/render round trip: model parser + container + renderer; the same parser with one flag
  (`strict`) under which the places that drop, respell or move text raise `LossyE n`; theorem: a strict
  run that succeeds gives the text back; the claim without the flag is refuted with witnesses; for texts of an
  ordinary shape (`Ordinary.v`, textual conditions only) a strict run makes no report (`NoLoss*.v`: container
  invariant, where array values may begin, dates, line ends), hence they come back; for TOML documents (Document.v) whose
  headers are spelled evenly (`Spelling.v`) the run of C40 is repeated with the flag on (`DocRun.v: document_strict`).
- C02 termination: fuel sufficiency by a size measure, for every input, and monotonicity in the fuel.
- C03 classification of exceptions by a Hoare logic over the parser (`Errors.v`); refuted for two builtin exceptions.
- C04 `_to_linecol` against an independent count of lines. C05-C09 string codecs by induction on the string.
- C10-C12 integers against positional values. C13-C15 dates against an independent calendar. C16 keys.
- C17-C21 container invariant (`Consist.v`, `Wf.v`) and refinement to an ordered map; locality of the text by rendering lemmas.
- C22-C24 arrays: refinement to lists; comma discipline as an invariant of the groups; refutations.
- C25 line endings, induction on the text. C26 unicode escapes.
- C27 dumps of nested dicts: a writer-side induction giving the exact text, and a reader-side induction reading it back.
- C28 `item`/`unwrap` on nested values. C29 control characters: Hoare triples on what may be in the consumed text.
- C30, C31 reader/parser lemmas. C32 arrays of tables over identities, refinement to lists.
- C33 heap model: look-ups do not change the objects. C34 parser lemma, C35 arrays.
- C36 floats: literals against positional values; the text of a float reads back.
- C37 grammar soundness: everything accepted is generated by an independent grammar (induction over the fuel of the mutual
  parser), the known holes of the implementation being explicit lax productions; strict version under textual side conditions.
- C38 completeness: Denote.v gives value texts and their Python values without reference to the parser; mutual induction over
  a derivation runs the parser on the text in any context (`comes`, CompValue.v), scalars by the lemmas of CompStr/CompNum/CompDate.
- C39 meaning: the statements of the lines of an accepted text, as facts (path, value text), are a permutation of the facts of the
  resulting tree (induction over parser and `append`); look-ups answer from the facts; a value is read from its own text alone.
- C40 documents: Document.v gives documents and their dicts without reference to the parser (values by Denote.v); mutual induction
  over a derivation runs the parser in any context of open tables (DocHead: headers, DocSpot: where the tree grows, DocRun).
- C41 edited arrays: the comma layout of C23 is a derivation of Denote.v's `elements` (Reread.v); then C38.
- C42 written values: induction on the Python value, the text written (`vtext`, C27's writer side) is derived in Denote.v (Written.v).
- C43 edits, C44 rewriting: `Edit.v` models assignments, deletions, insertions into / deletions from arrays of tables, additions of keys, comments and empty lines, `comment()` and `indent()` of an item, reached by indices; `Changes.v` says what they do to the dict; `Possible.v` says which edits the theorems speak of. Invariant `neat c d` (Neat.v): the lines and headers a container is printed as are a derivation of Document.v for d. Printing a neat container gives a TOML document (Neat.v); each edit keeps neatness and changes d as specified (EditNeat; MadeNeat: tables made of dicts; EditOps; EditMore: additions, comments, indentation; EditSwap: a value in the place of a table and conversely; EditAll); the parser's result on a document of whole lines is neat (DocSpot, DocRun, DocNeat: the runs of C40, with neatness carried along).
- C45 copies: invariant of parsed containers (Wf.v, `deep`): the dict lists the keys in order of first appearance, arrays are grouped as `_group_values` groups, inline tables are not `_new`, arrays of tables are `_parsed`. Then `copy_cont c = c` up to the never printed trivia of arrays of tables (CopyFacts.v), by induction on the tree. Edited documents: refuted.
- C46 strokes: `Surgery.v` says what each edit does to a text (`stroke`: one line rewritten, added or removed between `a`, a whole number of lines, and `b`). Proof: in the text of a neat container the path to the edited table splits the text (SurgeryFacts.v, `path_text`); at the table the entry list changes in one segment (`leaf`), the header does not; everything before the segment is whole lines (`body_starts_mut`). With C01_document_partial the strokes start from the text read. Not covered: edits that make or remove tables, additions to and deletions from header-less tables.
- C47 derived items: `Derived.v` models `String.__add__`, `Float._new` and the other `_new`; the value of the operation itself is Python's and is a parameter. Proof: a one-line TOML string split anywhere between two units stays one (`str_add_ok`), the result of a float operation with the old sign rule (`float_new_ok`), ISO formats by C42's lemmas. Refuted for mixed kinds, multi-line strings, plain strings with quotes or backslashes, and signed floats with a negative result.
- C48 out-of-order views: `Views.v` models `OutOfOrderTableProxy` (the parts as positions in the document, the map from keys to parts, the inner container) and what writes through it do to the document and to the view. Proof: the map names the one part with the key (`the_part`), the write is then a replacement or deletion inside one table (C18, C19), the text of an emptied part goes (`delete_part`); the inner container has the key as a value because its facts are those of the parts (C39's `all_f`). Refuted: several writes through one view, new keys, keys whose table is in several parts.
- C49 inside values: `Edit.v` (`inline_op`, `inline_add`, `array_op`, `inside_item`) models assignment, deletion and `append` in inline tables and the list operations (append, extend, insert, assignment, del, pop, clear, ...: `lop` of ListSpec.v) in arrays, reached through inline tables and arrays; `Changes.v` (`changed_inside`) says what they do to the value. Proof: one invariant of items (`snug`, Snug.v): the body of an inline table is a list of pairs, dotted tables and blanks whose text, commas included, is derived once from the printer (`snug_says`), an array is a list of groups whose text stands for the list of its elements (`sg_array`, with C22's `text_tidy` for tidy arrays); each operation keeps it (InsideFacts.v: `op_inside`, `lop_made`, `array_ok`, `inside_ok`); values read from text have it (ValueEnd.v, CompValue.v `denotes_snug`), and so have values made from Python values (MadeSnug.v `made_both`) and `inline_table()`. Also part of C43 and C46 (edit `EInside`). Refuted: operations in a table that dotted keys make inside an inline table; additions to untidy arrays (C22_refuted).
- C50 Trees.v, Memory.v, PropMemory.v.  The invariant of C43/C49 (Neat.v, Snug.v) fixes the text; Memory.v proves that it also fixes `unwrap()`: the entries of each key, wherever they are, are the positions in the index (consistency, Consist.v), so a container whose entries say the statements `ss` unwraps to the dict of `ss` in the order of the index, and the order of statements does not matter up to Python equality (Trees.v: `puts_permuted`).  `C50_document_partial`, `C50_new_partial`, `C50_value_partial` for the edits and documents of C43/C49; `C50_refuted`: a dict assigned above a dotted key, a key below an unfinished last line, a comment with a line break.
- C51 dict methods: `Mapping.v` composes the mixins from the lookups of Lookup.v and the edits of Edit.v, as collections.abc does; `MappingSpec.v` says what they return and do for a Python dict and where they may be called. Proof (MappingFacts.v): each is a sequence of edits of C43, and what is in memory is what the text stands for (C50), so the value looked up is the one in the dict. `C51_methods_partial`, `C51_new_partial`; `C51_nothing_to_do` for any text; `C51_refuted`: popitem takes the first key, clear and pop of the last key in a table without a header.
- C20 in documents: `Regular.v` derives the regularity of the entries and the closed lines from the invariant of C43 (`nbody`); `PropPlace.v: C20_document_partial`.
- C52 refused operations: Container.v and Arrays.v give an exception or the new object; `Failing.v` models the operations a second time as commands that give the outcome and the object as it then is (an exception between two statements leaves what the first one did). Arguments are values or objects that `item()` refuses. Proof (FailFacts.v): under the invariants of C17 (consistency) and C22 (`sync`) no command raises after its first change, and it agrees with Container.v/Arrays.v; specification in FailSpec.v and OMap.v/ListSpec.v. `C52_document_partial` (documents and tables in them), `C52_array`; `FailAot.v` and `C52_tables` (PropFailAot.v) do the same for arrays of tables, on the object of AotObj.v; `C52_refuted`: a dotted key added twice is refused and left in the document, slice assignment is refused and left in the list.
- C53 raw text: `Raw.v` over the parser model. Proof (RawFacts.v): the run of C38/C40 (`key_run_parts`, `comes`) in the order of `_parse_key_value`, then append on an empty container computed (`norm_entry`), its text by `norm_text`, its dict by `dent`; acceptance by C37's `kv_gram`; specification: `RawSpec.v: nest` with Denote.v/Document.v. False: `C53_rest_refuted`, `C53_array_refuted`, `C53_boolean_refuted`.
- C54 keys: `Keying.v` models `tomlkit.key`, key comparison with keys and strings, hashes (over any hash functions of strings and tuples) and `InlineTable.append` with a key; joining is `key_concat` of Items.v. Specification: `key_means`/`name_means` (Denote.v), `nest` (RawSpec.v), `spells` (PropKeys.v: the names, the text, the parts). Proof: induction over the parts, with the reading lemmas of C53 (`key_value_parts`, `new_text`) and the value text of C42. `C54_made`, `C54_read`, `C54_joined`, `C54_joined_made`, `C54_compared`, `C54_document_partial` (new documents), `C54_inline_partial` and `C54_inline_made_partial` (empty inline tables: pairs read, keys from a string); `C54_refuted`: a made dotted key appended to an inline table is written `{a. = b = 1`; a key made from a list of one string equals neither the string nor the single key.

## Trusted base
- Coq 8.16.1's kernel and its VM (`vm_compute` in examples, refutations and a few table look-ups).
- `Print Assumptions` reports "Closed under the global context" for every theorem listed in MANIFEST.json:
  no axioms are used.  (vcheck lists seven `Coq.ssr.ssrunder` parameters: they are module-type fields of the
  standard library that some loaded library file contains; no theorem depends on them.)
- The transcription of the Python code into the model, by reading; there was no way to run it against the code.
  The comments cite file and lines so it can be checked.

## Not modelled, or simplified
- Python: recursion limit, the 4300-digit limit of `int()`, memory; IEEE rounding (a float is the exact decimal of its
  shortest repr); `str.lower` beyond ASCII; display names of time zones; sub-minute UTC offsets; `time` with tzinfo.
- Aliasing: the tree model copies.  `OutOfOrderTableProxy` is computed as a value; where the code would mutate a shared
  object during parsing (an array of tables met twice through a proxy) the model raises `UnmodelledE`, and theorems say so.
  `Heap.v` models the sharing for reads, `AotObj.v` for arrays of tables.
- `Table.__setitem__`'s re-indentation of new values, the
  conversion of booleans in `Container.__getitem__`, single-part `DottedKey`s.
- `Array`: subclassing/`__iadd__`-style list operators other than those in C22-C24; `AoT` in the tree model has no `_body`.
- `item()`: tuples, custom encoders, `_sort_keys=True`, subclasses of dict/list, values that are already items inside dicts.
- `__repr__`, `Comment`/`Whitespace` editing methods, `StringType.select` on invalid input, `TOMLFile` beyond line endings.

## Findings (each is a theorem with suffix `_refuted`, or named in MANIFEST.json)
Lossless round trip: eleven accepted texts that come back changed (C01). `x = 99999999999-01-01` raises OverflowError,
indented out-of-order tables AttributeError (C03). Wrong line/column after CRLF, U+2028 or a final newline (C04).
Multi-line strings starting with a line break lose it (C06/C07). `-5 - 1` renders `--6` (C12). Containers: a key added after a
dotted key without final newline is glued to it; a plain value assigned over a table lands inside the preceding table
(C17/C20); arrays: nine edits that break text or list (C22-C24); `"\r\r\n"` (C25); `\U0000D800`, `\u0x41` accepted (C26);
a dict whose dump reads back different (C27); control characters accepted (C29); `AoT.sort` (C32); reading changes the text
(C33); `[{a=1]` accepted and dropped (C35); `0E5` refused (C36); `x = [{a]` and `[[a]` accepted (C37); contradictory
out-of-order tables accepted, reading them raises (C39).
