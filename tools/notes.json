{
 "C01": [
  "proved",
  "Exactness and stop-on-overflow for all precisions; the exceptions named in the statement are *_refuted theorems (the guard negates the most negative value)."
 ],
 "C02": [
  "proved",
  "Exact whenever representable; C02_mul_overflow_refuted: an unrepresentable product is computed before it is checked, so no build stops with the promised error."
 ],
 "C03": [
  "proved",
  "All divisions proved against floor/Euclid for every representable operand with representable quotient; floor_div_r near the minimum is refuted (intermediate product overflows)."
 ],
 "C04": [
  "proved",
  "For all operands except the most negative value, which is undefined (refuted theorem)."
 ],
 "C05": [
  "proved",
  "For every data model except 64-bit integers with a 32-bit long, where the order is refuted."
 ],
 "C06": [
  "proved",
  "Value round-trip for all values and contexts; the documented position update and the detection of the end of input are refuted."
 ],
 "C07": [
  "proved",
  "Values within C int (or unchanged precision) are preserved; outside, the conversion stops or truncates (refuted theorems)."
 ],
 "C08": [
  "proved",
  "For vectors of every size; equality with exactly one NULL argument dereferences it (refuted theorem)."
 ],
 "C09": [
  "proved",
  "For all well-formed unions of any size, at value level and in memory (also when both arguments are the same object)."
 ],
 "C10": [
  "proved",
  "Relations, relation lists, strings, extension lists, interface lists, statements and scops: equality of contents and independence proved at memory level for every allocator; extension data in C50. A list with two extensions of the same URI cannot be copied (refuted theorem)."
 ],
 "C11": [
  "proved",
  "For all unions and all integer points."
 ],
 "C12": [
  "proved",
  "Contents after each edit, preservation of well-formedness, all range checks, and insert/remove inverse."
 ],
 "C13": [
  "proved",
  "Contents, cylinder semantics, range checks, inverse."
 ],
 "C14": [
  "proved",
  "Denotation proved for insert_constraints, insert_vector, concat_constraints; loss of type/attributes by concat is stated as a refuted theorem."
 ],
 "C15": [
  "proved",
  "Denotation and involution."
 ],
 "C16": [
  "proved",
  "extend_output for unions of one precision and number of outputs (NULL dereferences: refuted theorem). normalize_scattering: every scattering of the first scop of the list gets the same number of outputs, the largest, nothing else changes and the schedules mean the same. Quantifier: the code assumes that the parts of a union share their precision and output count."
 ],
 "C17": [
  "proved",
  "Soundness in checked builds and completeness; only the first part's type is looked at (refuted theorem)."
 ],
 "C18": [
  "proved",
  "Sound in checked builds and complete for int-sized coefficients; release build truncation is refuted."
 ],
 "C19": [
  "proved",
  "Relations, lists, statements and scops; the maximum is attained or is the initial value (or the code's OSL_UNDEFINED floor)."
 ],
 "C39": [
  "proved",
  "add_vector sound; sub_vector sound for equalities and refuted for inequalities."
 ],
 "C25": [
  "proved",
  "String skipper: exact, unique, idempotent on all strings. Stream skipper agrees with it on texts without over-long lines; the long-line case is refuted."
 ],
 "C26": [
  "proved",
  "Up-to-flag/tag reading proved for all texts and non-empty flags (file: flags without byte 255). osl_util_tag_content drops the first character of the content and is undefined on empty content (refuted); proved with that exception."
 ],
 "C27": [
  "proved",
  "Termination, exactness (soundness and completeness of the replaced occurrences), parenthesis rule and distinct placeholders; an empty identifier loops forever (refuted theorem, excluded by the quantifier)."
 ],
 "C37": [
  "proved",
  "For every history of appends starting from a buffer whose mark is its size."
 ],
 "C38": [
  "proved",
  "All environment values and both builds."
 ],
 "C41": [
  "proved",
  "For texts with a meaningful character left; at the end of input the stream form passes NULL to sscanf (refuted theorem)."
 ],
 "C28": [
  "proved",
  "Non-empty lists of non-empty blank- and comment-free strings below the buffer size, string and stream. Other inputs (double separators, end of input, empty list, EOF, long strings) are refuted."
 ],
 "C29": [
  "proved",
  "All lists, strings and non-negative counts; a negative count writes out of bounds (refuted theorem)."
 ],
 "C20": [
  "proved",
  "For every coherent union with supported type and few enough columns for the line buffers (explicit bound on columns, coefficient digits and name lengths) the text is printed and reads back as the same union, and the stream is left just after it. NULL, the type ACCESS, very wide relations and access relations without array identifier are refuted theorems, and excluded by the statement."
 ],
 "C21": [
  "proved",
  "Single-part relations read back exactly; for unions the types of the parts after the first are lost (exact result proved, full claim refuted)."
 ],
 "C42": [
  "proved",
  "The two cases the check misses (blank after the last number, string reader) are refuted theorems."
 ],
 "C22": [
  "proved",
  "Every operation, and every sequence of operations, on the pointer-level model, with the exact memory. osl_relation_list_set_type (not in the statement) only sets the first part of each union (refuted variant)."
 ],
 "C40": [
  "proved",
  "Exact memory of every constructor/destructor/add/remove on relations, relation lists, extensions, interfaces, statements, scops; leaks stated as refuted theorems (relation remove_part of the head, scop remove_unions). The data of an extension is one opaque block here; its real blocks are in C50."
 ],
 "C23": [
  "proved",
  "Lookup, add, remove, count, and all histories (any length) proved; refuted: an extension with NULL data, or duplicates inside the added list, are not detected."
 ],
 "C24": [
  "proved",
  "For all registries and URIs; default registry computed from the model. Exception stated as refuted theorem: osl_interface_equal on NULL URIs dereferences NULL."
 ],
 "C30": [
  "proved",
  "Statement level proved in full (count, single parts, accesses/extensions kept, same (iteration,date) pairs, source unchanged). Scop level: exact behaviour proved for every scop list, the promise proved when only the last statement has unions, and refuted in general (a statement is lost and leaked)."
 ],
 "C31": [
  "proved",
  "Memory level, all sizes, every allocator. The exceptions in the quantifier are refuted theorems: osl_statement_equal dereferences a NULL argument, osl_scop_equal calls strcmp on a NULL language and ignores all but the first interface of the registries; lists with duplicate URIs are not compared correctly."
 ],
 "C32": [
  "proved",
  "Round-trip, add, index lookups, clones and the table of names proved; equality is exact for tables without repeated entries, with repetitions it is a subset test (refuted), and non-positive identifiers make osl_arrays_to_strings write out of bounds (refuted)."
 ],
 "C33": [
  "proved",
  "Round-trip proved for coordinates, scatnames, scatinfos, extbody, loop, pluto_unroll, annotation, region, dependence (single-part domains), clay, comment, null, with exact format constraints. Refuted: textual is never printed, region/loop/dependence equality is undefined on some inputs, comment equality accepts everything, long lists or texts overflow, '#' and leading blanks are lost. Symbols round-trip when all four fields are present and the text has fewer than 2048 characters (refuted otherwise); only the first symbols of two lists are compared (refuted)."
 ],
 "C34": [
  "proved",
  "For any number of iterators and one non-empty one-line expression without '#' and leading blank (all of which are refuted otherwise)."
 ],
 "C36": [
  "proved",
  "Sound in checked builds (C17), and complete for int-sized coefficients and body data under the body URI. Hypotheses: well-formed relations, C-sized fields."
 ],
 "C35": [
  "proved",
  "C35_scop_roundtrip: any list of scops of the format (scop_ok, SaveSpec.v) that was printed reads back as reread_scop of it, the same scop up to a newline gained by comments in the scop's extension list; identical without comments and symbols (C35_scop_identical); accepted by osl_scop_equal (C35_scop_equal) except regions and non-uniform loops whose own equality is undefined. Also for statements and lists of extensions. Refuted outside: no context, no relation at all, parameters that are not strings, duplicate URIs, comment newline."
 ],
 "C43": [
  "proved",
  "Comments, expressions, simple outputs, column names and header line, for all relations and points in debug builds (the array identifier is truncated in release builds, see C18). Refuted at the limits: the range check of osl_relation_is_simple_output accepts one row too many, comments of 2047 characters or more are cut, longer expressions overflow their buffer."
 ],
 "C44": [
  "proved",
  "All kinds of data, extensions, symbols, interfaces, names, statements and scops. Refuted outside the stated conditions: duplicate URIs stop the program, extensions without interface are dropped, NULL annotations or lines are dereferenced, regions cannot be compared. That nothing is shared is C10."
 ],
 "C45": [
  "proved",
  "Sound and complete for scops whose statements have scatterings, in debug builds for soundness (as C36). Refuted: NULL scop or missing scattering is dereferenced; inequality rows, missing rows and further parts of the scattering are not checked, so an accepted scattering need not be a function."
 ],
 "C46": [
  "proved",
  "For all registries. Refuted: the extraction of an extension kept as text, announced by the documentation, uses the data as if it were the extension; duplicates inside the new list are not detected."
 ],
 "C47": [
  "proved",
  "Histories of any length. osl_dependence_add with a cursor that is not on the last element loses the elements after it (refuted variant)."
 ],
 "C48": [
  "proved",
  "Additions: proved for all histories. Printing: proved for texts shorter than 2048 characters. The rest is false of the code as soon as there is a predicate: clone writes outside an array, equality ignores which predicates guard a statement and lets differences cancel, strdup evaluates strtok twice so that bodies and iterators are never read back, longer texts reuse an exhausted va_list; the *_no_predicate and *_same_shape theorems cover what remains."
 ],
 "C49": [
  "proved",
  "Proved for every text that is produced (no bound on sizes), with the exceptions named in the statement. Outside them the format is broken: C49_fake_rows_refuted (adding the iterator to a scattering of 2 or 3 rows drops rows, of 4 or more loops forever; osl_statement_pprint_scoplib never asks for that, a direct call of osl_relation_spprint_scoplib can), C49_access_refuted (may-writes, unions, empty accesses, no access), C49_free_iterator_refuted (a domain with an iterator but no constraint), C49_null_refuted. C49_prints: totality (every expressible scop whose rows fit is printed); C49_layout and C49_file_layout: the exact layout with the comments and statement numbers (LayoutSpec.v)."
 ],
 "C50": [
  "proved",
  "Memory level, every kind of extension data, every allocator. NULL annotations: refuted theorem. C50_malloc: what the allocation functions give."
 ],
 "C51": [
  "proved",
  "Memory level with the real blocks of every string and of every kind of extension data, for every allocator and every other content of the memory. Extensions without interface and annotations without data: refuted theorems."
 ],
 "C52": [
  "proved",
  "All configurations. What GMP returns for a value out of range of long in a release build is not modelled. Exceptions: C52_get_long_long_refuted, C52_init_set_long_refuted."
 ],
 "C53": [
  "proved",
  "Coefficients are C ints and the number of columns is bounded by the line buffers (relation_fits); the text lines of the extensions are assumed short (extension_fits), everything else about the text is proved. C53_statements_layout and C53_layout: the exact layout of the file with the comments and statement numbers (LayoutSpec.v)."
 ],
 "C54": [
  "proved",
  "Blocks and values agree function by function (agrees), then the main edits restated on values (with_rows, insert_at, remove_at). Nothing is said where the value-level function has no defined result (machine overflow). A GMP operation is one step. Exception: C54_extend_output_refuted."
 ],
 "C55": [
  "proved",
  "The dump is modelled as the text written. The statements a dependence points to are given by a function of the dependence; fuel bounds the nesting dependence -> statement -> dependence (C55_fuel: the bound does not matter). Values seen completely: library interfaces, words in lists of strings, one-line texts (40 characters for textual), no region or annotation; exact texts for relations, vectors, annotations, regions and irregular extensions; the exceptions are C55_..._refuted."
 ],
 "C56": [
  "proved",
  "Printing succeeds and reads back, for lists with NULL elements too. The dependences' text is assumed to be printed (C53 proves that it is for scops). Exception: C56_empty_list_refuted."
 ],
 "C57": [
  "proved",
  "Doubles are modelled as the integers with 53 significant bits below 2^1024, and infinities. Default rounding mode. Exception: C57_precision_refuted."
 ],
 "C58": [
  "proved",
  "No hypothesis on the text. Undefined behaviour is an allowed outcome here (C38, C58 findings). Exceptions: C58_duplicates_refuted, C58_precision_refuted, C58_incoherent_refuted."
 ],
 "C59": [
  "proved",
  "C59_clone_refuted: undefined behaviour for every structure with a predicate and every allocator. malloc is assumed not to fail, and malloc(0) to return a block."
 ],
 "C60": [
  "proved",
  "C60_leak_refuted: a closing tag among the extensions leaves one block. C60_empty_tag_refuted: undefined behaviour on <>. The file position, the line buffers on the stack and the integrity check at the end of osl_scop_pread (it only reads) are those of the value-level model."
 ],
 "C61": [
  "proved",
  "Arguments are different objects (pointer equality shortcuts answer yes at once). C61_refuted: scops that differ in a comment, in the second symbol, in the registry are found equal. C61_no_statement_refuted: statements against none dereference NULL. C61_no_interface: an extension without interface is never found equal."
 ],
 "C62": [
  "proved",
  "agrees: whatever the value-level function of C20/C21/C53 answers, the memory-level one answers, with exactly the memory of the start. C62_prints: with C20, printable relations are printed. C62_leak_refuted: an access with nb_output_dims 0 loses one block. Simplified: functions that only read the relation read it as a whole; capacities are those of C37 and C53."
 ],
 "C63": [
  "proved",
  "agrees: whatever the value-level function of C33/C35/C53 answers, the memory-level one answers, with exactly the memory of the start. Simplified: the print function of one extension (symbols apart) reads its data as a whole and makes its text at once; the matrices of relations inside extensions are one block."
 ],
 "C64": [
  "proved",
  "agrees: whatever the value-level function answers, the memory-level one answers, with exactly the memory of the start. C64_saves/C64_save_read combine it with C53 and C60. The relations of the scop have every coefficient in memory (MatSpec); those inside extensions are one block (C63)."
 ],
 "C65": [
  "proved",
  "C60 and C51 redone with the relations of MatModel (every number in memory); C65_read_print_free and C65_save_read put reading, saving (C64) and releasing together. The relations inside extensions are one block (C60)."
 ],
 "C66": [
  "proved",
  "C22, C30 and C40 redone with every number in memory, and C16's normalization as a program. The leak of osl_relation_remove_part on the first part and the part types that osl_relation_list_set_type leaves are proved as _refuted. osl_scop_remove_unions: C67."
 ],
 "C67": [
  "proved",
  "C30 redone with every number in memory: C67_remove_unions_exact says what is computed and what is lost on every input, C67_remove_unions_last is the promise where it holds, C67_remove_unions_refuted shows that it fails otherwise."
 ]
}