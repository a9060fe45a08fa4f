import json
P=[]
def p(i,t,s,q,w,a): P.append(dict(id=i,title=t,statement=s,quantifier=q,why_tests_cant=w,anchors=a))
p("C01","Integer addition and subtraction are exact or stop with an error",
 "osl_int_add, osl_int_sub, osl_int_add_si, osl_int_increment and osl_int_decrement store the mathematical sum or difference whenever it is representable in the chosen precision (always, for GMP); in a checked build, when the result is not representable, the process stops with an error instead of storing a wrong value. Exceptions, where the guard itself overflows and the behaviour is undefined: subtracting the most negative value of the precision, adding it (or the most negative C int) to a negative value in a checked build.",
 "all precisions (SP, DP, GMP), all operand values representable in them, checked and NDEBUG builds",
 "2^128 operand pairs per precision and an unbounded set for GMP; overflow guards are wrong at single corner values",
 ["source/int.c:osl_int_add","source/int.c:osl_int_add_si","source/int.c:osl_int_sub","source/int.c:osl_int_safe_increment","source/int.c:osl_int_increment","source/int.c:osl_int_decrement"])
p("C02","Integer multiplication, negation and absolute value are exact",
 "osl_int_mul, osl_int_mul_si, osl_int_oppose and osl_int_abs store the mathematical result whenever it is representable, in every precision. The overflow check of the products comes too late to protect: a product that is not representable is undefined behaviour in every build, as is negating the most negative value.",
 "all precisions, all operand values, checked and NDEBUG builds",
 "the operand space cannot be enumerated and the failures sit on the representability boundary",
 ["source/int.c:osl_int_mul","source/int.c:osl_int_mul_si","source/int.c:osl_int_oppose","source/int.c:osl_int_abs"])
p("C03","Division family obeys the Euclidean laws",
 "For a non-zero divisor: osl_int_floor_div_q stores floor(a/b); osl_int_floor_div_r stores a - b*floor(a/b); osl_int_floor_div_q_r stores both; osl_int_mod stores the unique residue of a modulo b with 0 <= r < |b|; osl_int_div_exact stores the quotient when b divides a; all agree between fixed precision and GMP. The quotient has to be representable, for the floor remainders b*floor(a/b) too, and for osl_int_mod b must not be the most negative value.",
 "all precisions and all pairs a, b with b <> 0 within the stated representability conditions",
 "sign combinations and exact multiples over an unbounded operand space; C truncation versus floor differ only on some of them",
 ["source/int.c:osl_int_floor_div_q","source/int.c:osl_int_floor_div_r","source/int.c:osl_int_floor_div_q_r","source/int.c:osl_int_mod","source/int.c:osl_int_div_exact"])
p("C04","gcd and lcm are the greatest common divisor and least common multiple",
 "osl_int_gcd terminates and stores the non-negative greatest common divisor of its arguments (0 for 0,0); osl_int_lcm stores the non-negative least common multiple whenever it is representable. The most negative value of a fixed precision is excluded (the behaviour is undefined).",
 "all precisions, all pairs of values other than the most negative one",
 "termination and maximality quantify over every pair and every common divisor",
 ["source/int.c:osl_int_gcd","source/int.c:osl_int_llgcd","source/int.c:osl_int_lcm"])
p("C05","Comparisons agree with the order of the integers",
 "osl_int_eq/ne/lt/le/gt/ge/pos/neg/zero/one/mone/divisible return true exactly when the mathematical relation between the stored values holds, so they form one total order (divisible: for a non-zero divisor whose quotient is representable). The exception is the order of 64-bit values on a platform whose long has 32 bits, where it is wrong.",
 "all precisions, all pairs of representable values, data models where long has 64 bits or the precision is not 64",
 "needs every pair of values and every data model",
 ["source/int.c:osl_int_eq","source/int.c:osl_int_lt","source/int.c:osl_int_le","source/int.c:osl_int_gt","source/int.c:osl_int_ge","source/int.c:osl_int_pos","source/int.c:osl_int_neg","source/int.c:osl_int_zero","source/int.c:osl_int_one","source/int.c:osl_int_mone","source/int.c:osl_int_divisible"])
p("C06","Printed integers read back as the same value",
 "Text produced by osl_int_sprint/osl_int_sprint_txt for a value v, followed by any text that does not start with a digit, is read by osl_int_sread as v. (The cursor is not left after the number as documented: it moves by one character, or by -1 when there is nothing to read.) osl_int_size_in_base_2 and osl_int_size_in_base_10 return the number of binary and decimal digits of a non-zero value that is not the most negative one.",
 "all precisions, all representable values, all following texts that do not extend the number",
 "every value and every surrounding text",
 ["source/int.c:osl_int_sprint","source/int.c:osl_int_sprint_txt","source/int.c:osl_int_sread","source/int.c:osl_int_sscanf"])
p("C07","Changing precision preserves values",
 "osl_int_set_precision, osl_relation_set_precision and osl_relation_set_same_precision change the representation but not the value of any number that fits in a C int (or whose precision does not change); the latter two leave everything else in the relations unchanged and set_same_precision chooses the larger precision. Numbers outside the range of C int, even if representable in the target precision, are not preserved: the conversion goes through int and stops in checked builds, and truncates silently in NDEBUG builds.",
 "all source/target precision pairs, all values in the range of C int, all relations with such coefficients and one precision per union",
 "every value and every relation shape",
 ["source/int.c:osl_int_set_precision","source/relation.c:osl_relation_set_precision","source/relation.c:osl_relation_set_same_precision"])
p("C08","Vector operations are componentwise",
 "osl_vector_add/sub/add_scalar/mul_scalar produce vectors of the same size whose components are the mathematical componentwise results (add_scalar touches only the constant) whenever the results are representable under the conditions of C01 and C02; a component of a sum that is not representable stops a checked build, and NULL, different sizes or different precisions stop add and sub. osl_vector_equal holds exactly for equal size, precision and components; osl_vector_is_scalar holds exactly when every component but the last is zero; tag setters change only component 0.",
 "all vectors of any size and any precision (osl_vector_equal: not exactly one NULL argument, which is dereferenced)",
 "any size and any component values",
 ["source/vector.c:osl_vector_add","source/vector.c:osl_vector_sub","source/vector.c:osl_vector_add_scalar","source/vector.c:osl_vector_mul_scalar","source/vector.c:osl_vector_equal","source/vector.c:osl_vector_is_scalar","source/vector.c:osl_vector_tag_equality","source/vector.c:osl_vector_tag_inequality"])
p("C09","Relation equality is structural equality",
 "osl_relation_equal returns true exactly when the two relation unions have the same parts in the same order with equal type, dimensions and coefficients; hence it is reflexive, symmetric and transitive, and osl_relation_part_equal is the same for one part.",
 "all pairs and triples of well-formed relation unions of any size",
 "an equivalence over all pairs/triples of unbounded matrices",
 ["source/relation.c:osl_relation_equal","source/relation.c:osl_relation_part_equal"])
p("C10","Cloning yields an equal, independent object",
 "osl_relation_clone / osl_relation_nclone / osl_relation_clone_nconstraints / osl_strings_clone / osl_relation_list_clone return objects equal to the source (or to the requested prefix), and nothing done to the source afterwards changes the clone.",
 "all source objects, all later histories of updates to the source",
 "independence quantifies over every later update history; equality over every object",
 ["source/relation.c:osl_relation_clone","source/relation.c:osl_relation_nclone","source/relation.c:osl_relation_clone_nconstraints","source/strings.c:osl_strings_clone"])
p("C11","Union operations denote set union",
 "osl_relation_add and osl_relation_union produce a union whose parts are those of the operands in order, denoting exactly the set union of the operands; osl_relation_nb_components counts the parts.",
 "all relation unions and all integer points",
 "every point of every relation",
 ["source/relation.c:osl_relation_add","source/relation.c:osl_relation_union","source/relation.c:osl_relation_nb_components"])
p("C12","Row edits are local and invertible",
 "osl_relation_insert_blank_row / insert_vector / replace_vector / remove_row / insert_constraints / replace_constraints / swap_constraints affect exactly the addressed rows, keep the relation well formed, and inserting then removing a row restores the relation; out-of-range indices stop with an error rather than corrupting the matrix.",
 "all relations, all indices (valid or not)",
 "every relation shape and every index, including the boundary ones",
 ["source/relation.c:osl_relation_insert_blank_row","source/relation.c:osl_relation_insert_vector","source/relation.c:osl_relation_replace_vector","source/relation.c:osl_relation_remove_row","source/relation.c:osl_relation_insert_constraints","source/relation.c:osl_relation_replace_constraints","source/relation.c:osl_relation_swap_constraints"])
p("C13","Column edits are local and invertible",
 "osl_relation_insert_blank_column / insert_columns / remove_column affect exactly the addressed columns; a blank column introduces an unconstrained dimension (the denoted set is the cylinder over the original); inserting then removing restores the relation.",
 "all relations, all column positions and all points",
 "every relation, position and point",
 ["source/relation.c:osl_relation_insert_blank_column","source/relation.c:osl_relation_insert_columns","source/relation.c:osl_relation_remove_column"])
p("C14","Adding constraints intersects",
 "osl_relation_insert_constraints and osl_relation_concat_constraints on single-part relations of equal width produce a relation whose constraints hold exactly at the points satisfying the constraints of both operands. osl_relation_concat_constraints does not keep the type and the numbers of dimensions: they have to be set again.",
 "all pairs of relations with equal width, all points",
 "set equality over all integer points",
 ["source/relation.c:osl_relation_insert_constraints","source/relation.c:osl_relation_concat_constraints"])
p("C15","Reordering constraints does not change the set",
 "osl_relation_swap_constraints and osl_relation_insert_constraints at any position denote the same set irrespective of position; swapping twice is the identity.",
 "all relations, all row pairs, all points",
 "set equality over all points",
 ["source/relation.c:osl_relation_swap_constraints","source/relation.c:osl_relation_insert_constraints"])
p("C16","Scattering extension preserves the schedule",
 "osl_relation_extend_output appends output dimensions fixed to zero and changes nothing else: the extended relation relates (input, output ++ zeros) exactly when the original relates (input, output). osl_scop_normalize_scattering gives every scattering of the (first) scop the same number of output dimensions, the largest one, in that way and changes nothing else.",
 "all non-NULL scattering relations whose parts have one precision, all target dimensions not below the present one, all points, all scops with such scatterings",
 "lexicographic schedule preservation is a statement about every pair of points",
 ["source/relation.c:osl_relation_extend_output","source/scop.c:osl_scop_normalize_scattering"])
p("C17","The relation integrity check accepts exactly the coherent relations",
 "When osl_relation_integrity_check accepts in a checked build, the first part of the relation has the expected type (the types of the others are not looked at), every part has dimension counts and a column count coherent with the expectations passed, every row tag is 0 or 1, and access relations expose an array identifier on each part; when they all hold it accepts (coefficients in the range of C int).",
 "all relation unions and all expected types and dimension counts",
 "a decision procedure's soundness and completeness quantify over all inputs",
 ["source/relation.c:osl_relation_integrity_check","source/relation.c:osl_relation_check_attribute","source/relation.c:osl_relation_check_nb_columns"])
p("C18","The array identifier read from an access relation is the one its constraints fix",
 "osl_relation_get_array_id returns n in a checked build only when every part of the access relation contains an equality whose only non-zero output coefficient is on the first output dimension and which forces that dimension to be n, so that it is n at every point; when every part has such an equality it returns n (coefficients in the range of C int). In an NDEBUG build a larger identifier is truncated.",
 "all access relations and all points in them",
 "every relation and every point",
 ["source/relation.c:osl_relation_get_array_id","source/relation.c:osl_relation_part_get_array_id"])
p("C19","Attribute maxima bound every relation",
 "osl_relation_get_attributes, osl_relation_list_get_attributes, osl_statement_get_attributes and osl_scop_get_attributes leave maxima that are at least the previous value and at least the attribute of each relation visited, and that are attained by a relation or are the previous value.",
 "all relations, lists, statements and scops, all initial values",
 "bounds over arbitrary collections",
 ["source/relation.c:osl_relation_get_attributes","source/relation_list.c:osl_relation_list_get_attributes","source/statement.c:osl_statement_get_attributes","source/scop.c:osl_scop_get_attributes"])
p("C20","A printed relation reads back from a file as the same relation",
 "For any coherent relation union, reading the text written by osl_relation_print with osl_relation_read yields an equal relation (types of all parts included) and leaves the stream just after that text. The text is printed, and fits, whenever the columns, coefficients and names are within an explicit bound given by the 2048-byte line buffers. NULL, the type ACCESS (printed, but not known to the reader) and access relations whose array cannot be found are excluded.",
 "all well-formed relation unions of one printable type and precision whose lines fit the library's line limit, all names, all texts that follow",
 "parser/printer inversion over unbounded matrices and values",
 ["source/relation.c:osl_relation_spprint_polylib","source/relation.c:osl_relation_pread","source/relation.c:osl_relation_print","source/relation.c:osl_relation_read"])
p("C21","A printed relation reads back from a string as the same relation",
 "For any well-formed relation, osl_relation_sread applied to the text of osl_relation_sprint, whatever follows it, yields an equal relation and advances past it (up to blanks). For a union the parts after the first come back equal except for their type, which is not read.",
 "all well-formed relation unions of one printable type and precision that can be printed",
 "parser/printer inversion over unbounded matrices and values",
 ["source/relation.c:osl_relation_sprint","source/relation.c:osl_relation_psread","source/relation.c:osl_relation_sread"])
p("C22","Relation-list operations behave like the abstract list",
 "osl_relation_list_add/concat/push/pop/dup/drop/filter/clone/count behave as append, append, cons, head/tail, duplicate-top, tail, filter-by-type, copy and number of present elements on the abstract list of relations, in order, losing or duplicating nothing.",
 "all lists and all sequences of operations",
 "arbitrary operation histories",
 ["source/relation_list.c:osl_relation_list_add","source/relation_list.c:osl_relation_list_push","source/relation_list.c:osl_relation_list_pop","source/relation_list.c:osl_relation_list_dup","source/relation_list.c:osl_relation_list_drop","source/relation_list.c:osl_relation_list_filter","source/relation_list.c:osl_relation_list_count"])
p("C23","Extension lists hold at most one element per URI and look up what was stored",
 "Starting from the empty list, any sequence of osl_generic_add / osl_generic_remove of single extensions with data keeps at most one extension per URI; osl_generic_lookup(u) returns the data last added under u if not removed, and nothing otherwise; adding a URI already present stops with an error. (Extensions without data, or a list added at once that repeats a URI, are not detected.)",
 "all histories of additions and removals of single extensions with data, all lookups",
 "a history property",
 ["source/generic.c:osl_generic_add","source/generic.c:osl_generic_remove","source/generic.c:osl_generic_remove_node","source/generic.c:osl_generic_lookup"])
p("C24","The interface registry resolves URIs uniquely",
 "osl_interface_get_default_registry registers pairwise distinct URIs; osl_interface_lookup returns the first registered interface with the requested URI and nothing when there is none; osl_interface_clone/equal agree.",
 "all registries and all requested URIs",
 "all registries built by any sequence of additions",
 ["source/interface.c:osl_interface_get_default_registry","source/interface.c:osl_interface_lookup","source/interface.c:osl_interface_add","source/interface.c:osl_interface_equal"])
p("C25","Blank and comment skipping is exact",
 "osl_util_sskip_blank_and_comments advances exactly over the maximal prefix of blanks, newlines and #-comments: the rest is empty or starts with a meaningful character, and no meaningful character is skipped; it is idempotent. osl_util_skip_blank_and_comments does the same on a stream whose lines have at most 2046 characters (a longer blank line confuses it).",
 "all input texts",
 "all strings",
 ["source/util.c:osl_util_sskip_blank_and_comments","source/util.c:osl_util_skip_blank_and_comments"])
p("C26","Flag and tag delimited reading finds the first delimiter",
 "osl_util_read_uptoflag(text, flag) returns exactly the text before the first occurrence of the non-empty flag and stops after it, from a string and from a file (flags without byte 255, which is taken for the end of file); osl_util_tag_content returns the text between the first <name> and the following </name> without its first character, which is taken to be a newline (an empty content is undefined behaviour); a missing flag or tag is reported by NULL, not misread.",
 "all texts, non-empty flags and tag names",
 "all strings, with flags overlapping themselves or the text",
 ["source/util.c:osl_util_read_uptoflag","source/util.c:osl_util_read_uptotag","source/util.c:osl_util_read_uptoendtag","source/util.c:osl_util_tag_content"])
p("C27","Identifier substitution terminates and replaces exactly whole identifiers",
 "osl_util_identifier_substitution terminates and replaces every maximal identifier occurrence equal to one of the given identifiers, and only those, by the placeholder @i@ of its rank, parenthesised unless the neighbouring characters show that this is not needed; different identifiers get different placeholders.",
 "all expressions and all arrays of non-empty alphanumeric identifiers",
 "all strings",
 ["source/util.c:osl_util_identifier_substitution","source/util.c:osl_util_identifier_is_here"])
p("C28","Printed string lists read back",
 "osl_strings_sread(osl_strings_sprint(l)) = l for every non-empty list of non-empty blank-free, comment-free strings shorter than the 2048-byte buffer, and the same through a file when the line fits it. (Two separators in a row, a missing end of line, the empty list and the end of file are not handled.)",
 "all such string lists, all texts that follow",
 "parser/printer inversion over all strings",
 ["source/strings.c:osl_strings_sprint","source/strings.c:osl_strings_sread","source/strings.c:osl_strings_read"])
p("C29","String lists: find, add, clone, equal, generate",
 "osl_strings_find returns the index of the first occurrence (or the size when absent); osl_strings_add appends; osl_strings_size counts; osl_strings_equal is list equality; osl_strings_generate(prefix,n) returns n pairwise distinct names prefix1..prefixn.",
 "all lists, strings and counts",
 "all lists and counts",
 ["source/strings.c:osl_strings_find","source/strings.c:osl_strings_add","source/strings.c:osl_strings_size","source/strings.c:osl_strings_equal","source/strings.c:osl_strings_generate"])
p("C30","Removing unions preserves the iteration sets and schedules",
 "osl_statement_remove_unions returns one statement per (domain part, scattering part) pair, each part with its own union tail removed, together denoting the same set of (iteration, date) pairs, the accesses and extensions being kept and the source unchanged. osl_scop_remove_unions keeps everything but the statement lists, and when no statement but the last has unions, it does this for every statement, in order, and loses none. With a union in an earlier statement the statements produced for it are lost but the first, and leaked.",
 "all statements and scops, all points, all memory states",
 "unbounded unions and lists",
 ["source/statement.c:osl_statement_remove_unions","source/scop.c:osl_scop_remove_unions"])
p("C31","Statement and scop clones are equal to their source",
 "osl_statement_clone, osl_statement_nclone and osl_scop_clone return objects holding the same contents as the source (nclone: as the requested prefix); osl_statement_equal accepts exactly the statement lists with the same relations and the same extensions in any order, osl_scop_equal likewise for scops (of the registries it looks at the first interface only), so clones are accepted as equal, equality is an equivalence, and neither function changes anything.",
 "all well-formed statement lists, and all well-formed scop lists whose scops have a language; statement lists are compared with statement lists, not with NULL",
 "all nested structures",
 ["source/statement.c:osl_statement_clone","source/statement.c:osl_statement_nclone","source/statement.c:osl_statement_equal","source/scop.c:osl_scop_clone","source/scop.c:osl_scop_equal"])
p("C32","Array-name extension round-trips and looks up names",
 "osl_arrays_sread inverts osl_arrays_sprint on tables of one-word names that fit the line buffer; osl_arrays_add appends; osl_arrays_get_index_from_id/name return the first index carrying that id/name or the size when absent; osl_arrays_equal accepts clones, and accepts tables without repeated entries exactly when they have the same entries (with repetitions it is a one-sided inclusion test); osl_arrays_to_strings gives the table of names by identifier, filled with dummies, when the identifiers are distinct and positive (others write out of bounds).",
 "all array tables",
 "all tables",
 ["source/extensions/arrays.c:osl_arrays_sprint","source/extensions/arrays.c:osl_arrays_sread","source/extensions/arrays.c:osl_arrays_equal","source/extensions/arrays.c:osl_arrays_add","source/extensions/arrays.c:osl_arrays_get_index_from_id"])
p("C33","Every text extension round-trips",
 "For each registered extension, reading what it printed yields the same object, which its own equality and clone functions accept: comment, scatnames, coordinates, clay, extbody, loop, pluto_unroll, scatinfos, annotation, region, symbols, dependence, null. Texts are single lines without '#' and without leading blank that fit the 2048-byte buffers, words are blank-free, numbers fit C ints, unroll lists are short enough to be printed, dependences have single-part domains and symbols all four fields. Exceptions: textual extensions are never printed; the comparison of regions, and of loops of which some but not all have a private list or user string, is undefined; comments always compare equal; a comment inside a symbol gains a newline; lists of symbols are compared on their first element.",
 "all extension payloads satisfying the documented format constraints",
 "parser/printer inversion over all payloads",
 ["source/extensions/*.c:osl_*_sprint","source/extensions/*.c:osl_*_sread","source/extensions/*.c:osl_*_equal"])
p("C34","Statement bodies round-trip",
 "osl_body_sread inverts osl_body_sprint on bodies with any number of one-word iterators and one non-empty one-line expression without '#' and leading blank (others are read back differently); osl_body_equal accepts exactly the bodies with the same iterators and expressions.",
 "all bodies of that form; equality: all bodies",
 "all strings",
 ["source/body.c:osl_body_sprint","source/body.c:osl_body_sread","source/body.c:osl_body_equal"])
p("C35","A printed scop reads back as an equal scop",
 "osl_scop_read applied to the file written by osl_scop_print yields a scop equal to the original, identical but for a newline gained by each comment extension; osl_scop_equal accepts it unless it has extensions whose own comparison is undefined (C33).",
 "all lists of scops in the format: a context, printable relations (C20) of one precision with the types of their roles, parameters that are strings, extensions with distinct registered URIs and the conditions of C33, lines within the line limit",
 "whole-format inversion",
 ["source/scop.c:osl_scop_print","source/scop.c:osl_scop_pread","source/statement.c:osl_statement_pprint","source/statement.c:osl_statement_pread"])
p("C36","The scop integrity check is sound",
 "If osl_scop_integrity_check accepts a scop in a checked build, then the context is a context, every statement has coherent domain/scattering/access relations with the scop's parameter count and its own iterator count; a scop that is coherent in this sense is accepted when its coefficients fit C ints.",
 "all scops",
 "soundness over all scops",
 ["source/scop.c:osl_scop_integrity_check","source/statement.c:osl_statement_integrity_check"])
p("C37","Growing string buffers never overflow",
 "osl_util_safe_strcat leaves dst = dst ++ src, NUL-terminated, within the allocated high-water mark, for any history of appends.",
 "all histories of appends of any strings",
 "memory safety over all histories and lengths",
 ["source/util.c:osl_util_safe_strcat"])
p("C38","Precision selection follows the environment",
 "osl_util_get_precision returns 32 or 64 when OSL_PRECISION is \"32\" or \"64\", and the best precision of the build (GMP if available, else 64) in every other case, including \"0\" and unknown values; the result is always supported by the build.",
 "all environment values and build configurations",
 "all strings",
 ["source/util.c:osl_util_get_precision"])
p("C39","Combining constraints with vectors is sound",
 "osl_relation_add_vector replaces a row by a constraint such that every point satisfying the row and the vector satisfies it; osl_relation_sub_vector does so when the vector is an equality (with an inequality the result is not implied). The sums and differences have to be representable.",
 "all relations, vectors, rows and points",
 "soundness over all points",
 ["source/relation.c:osl_relation_add_vector","source/relation.c:osl_relation_sub_vector"])
p("C40","Linked-list surgery neither leaks nor double-frees",
 "osl_relation_list_add/push/pop/drop/filter/free, osl_generic_add/remove/free, osl_relation_add/remove_part/free, osl_statement_add/free, osl_scop_add/clone/free, osl_interface_add/free at the pointer level: after the operation the heap contains exactly the nodes of the resulting lists plus the frame, no freed node is reachable and no unreachable node is left allocated. Exceptions: osl_relation_remove_part of the first part leaks that part, and osl_scop_remove_unions leaks the statements it loses (C30).",
 "all heaps, all list shapes and lengths",
 "memory safety quantifies over all heaps",
 ["source/relation_list.c","source/generic.c","source/relation.c:osl_relation_remove_part","source/statement.c:osl_statement_add","source/interface.c:osl_interface_add"])
p("C41","File and string readers agree",
 "On a text whose lines fit the line limit and that has something left to read, osl_util_read_int and osl_util_read_line return the same result whether the text is given as a FILE or as a string: the int or line at the first position that is neither blank nor comment.",
 "all texts without over-long lines",
 "all texts and comment placements",
 ["source/util.c:osl_util_read_int","source/util.c:osl_util_read_line","source/util.c:osl_util_skip_blank_and_comments","source/util.c:osl_util_sskip_blank_and_comments"])
p("C42","Incomplete relation text is rejected",
 "When a row of a relation text has fewer coefficients than the announced number of columns and ends right after its last number, osl_relation_read stops with an error instead of returning a relation with invented coefficients. (A blank after the last number defeats the check: the coefficient is repeated; osl_relation_sread takes the missing numbers from the next line.)",
 "all announced attributes, all complete rows before the short one, all short rows and all texts after it",
 "all texts",
 ["source/relation.c:osl_relation_pread","source/relation.c:osl_relation_psread_polylib"])
p("C43","The comments of a printed relation mean what its rows mean",
 "In the text of a relation, the comment after each row, read as an expression over the column names, is an equality or inequality that holds for exactly the points that satisfy the constraint of the row (the row that fixes the array names the array), as long as the comment is shorter than 2047 characters; the names are those of the iterators, scattering dimensions, parameters and so on in column order, and the header line shows each name above its column. osl_relation_expression, osl_relation_subexpression and osl_relation_is_simple_output denote the affine form and the shape they claim.",
 "all relations, rows, names (without sign, star, blank or leading digit) and points",
 "equivalence of printed text and constraint over all points, coefficients and names",
 ["source/relation.c:osl_relation_sprint_comment","source/relation.c:osl_relation_expression","source/relation.c:osl_relation_subexpression","source/relation.c:osl_relation_is_simple_output","source/relation.c:osl_relation_strings","source/relation.c:osl_relation_column_string"])
p("C44","A clone of an extension, a symbol table, a statement or a scop carries the same content",
 "The clone function of each of the eighteen interfaces, osl_generic_clone, osl_symbols_clone, osl_interface_clone, osl_names_clone, osl_statement_clone and osl_scop_clone return an object with the same content in the same order (the n-variants: the first n nodes), and the equality function of the library says that the copy is equal to the original. This holds for data that matches its interface, well-formed relations, extensions with distinct URIs and lines of text that are not NULL; for equality, names that are not NULL, no region, and loops of which all or none have a private list or user string.",
 "all kinds of data, all lists of extensions, symbols, statements and scops, nested to any depth",
 "all contents, lengths and nestings",
 ["source/generic.c:osl_generic_nclone","source/extensions/symbols.c:osl_symbols_nclone","source/interface.c:osl_interface_nclone","source/statement.c:osl_statement_nclone","source/scop.c:osl_scop_clone","source/names.c:osl_names_clone"])
p("C45","The SCoPLib compatibility check accepts exactly the coherent single scops in SCoPLib style",
 "osl_scop_check_compatible_scoplib returns 1 exactly when the list has one scop, the scop is coherent, no domain and no scattering has local dimensions and the output columns of (the first part of) every scattering are those of -Identity, provided every statement has a scattering; several coherent scops give 0, a coherent scop in another style stops the program. An equality row of such a scattering gives its time dimension as an affine function of the iterators and parameters.",
 "all scop lists whose statements have scatterings of one precision",
 "exactness over all scops and matrices",
 ["source/scop.c:osl_scop_check_compatible_scoplib"])
p("C46","Registered extension interfaces are found, and registration changes nothing else",
 "osl_interface_add and osl_scop_register_extension append interfaces whose URIs are not yet registered (otherwise the program stops): every URI found before gives the same interface, every new URI gives the new interface, and the scop is otherwise unchanged when it has no extension with that URI.",
 "all registries, lists of new interfaces and scops",
 "all registries and histories of registrations",
 ["source/interface.c:osl_interface_add","source/interface.c:osl_interface_lookup","source/scop.c:osl_scop_register_extension"])
p("C47","Lists and texts built by additions hold what was added, in order",
 "Whatever the sequence of osl_region_append_prefix/suffix/prelude/postlude, osl_annotation_append_prefix/suffix, osl_extbody_add, osl_loop_add, osl_symbols_add, osl_scop_add and osl_dependence_add calls (the dependence cursor staying on the last element), the object holds exactly the added items in the order of the calls, each in its own list, and the counting functions return their number. osl_statement_get_body returns the body of the statement, or else that of its extended body; osl_statement_get_nb_iterators and osl_scop_get_nb_parameters return, on coherent scops, the dimension shared by all the relations.",
 "all histories of additions, all statements and scops",
 "all histories",
 ["source/extensions/region.c:osl_region_append_prefix","source/extensions/annotation.c:osl_annotation_append_prefix","source/extensions/extbody.c:osl_extbody_add","source/extensions/loop.c:osl_loop_add","source/extensions/dependence.c:osl_dependence_add","source/extensions/symbols.c:osl_symbols_add","source/scop.c:osl_scop_add","source/statement.c:osl_statement_get_body","source/statement.c:osl_statement_get_nb_iterators","source/scop.c:osl_scop_get_nb_parameters"])
p("C48","The irregular extension: predicates are kept and printed; what copying, comparing and reading preserve",
 "After any sequence of osl_irregular_add_control, osl_irregular_add_exit and osl_irregular_add_predicates the structure holds the control predicates, the exit predicates and the guards of the statements in the order given; osl_irregular_sprint writes all of it when the text has fewer than 2048 characters; osl_irregular_equal decides, for structures of the same shape, whether the predicates and the numbers of guards of each statement are the same (not which predicates guard it); osl_irregular_clone and reading back the printed content return an equal structure when there are no predicates. With predicates osl_irregular_clone always writes outside an array and osl_irregular_sread has undefined behaviour on the first body.",
 "all histories of additions, all structures",
 "all histories and contents",
 ["source/extensions/irregular.c:osl_irregular_add_control","source/extensions/irregular.c:osl_irregular_add_exit","source/extensions/irregular.c:osl_irregular_add_predicates","source/extensions/irregular.c:osl_irregular_clone","source/extensions/irregular.c:osl_irregular_equal","source/extensions/irregular.c:osl_irregular_sprint","source/extensions/irregular.c:osl_irregular_sread"])
p("C49","A scop printed in the SCoPLib format contains exactly the numbers and names of the scop",
 "Comments left out, the text written by osl_scop_print_scoplib is: SCoP, the language, the context, the parameter names, the number of statements, for each statement its domains (their number if there are several, each with its rank), its scattering, the read then the write accesses and the body, and the arrays. Each matrix is announced by its numbers of rows and columns and holds the coefficients of the relation without the input columns of a domain and the output columns of the others (for an access, the array number in the first column of its first subscript); a statement without loop (no iterator, one time dimension) gets an iterator that is always zero. A matrix is determined by what is written, and incompatible scops are not printed. This is for statements with one domain union, a scattering of one part and at least one access, every access being a read or a write of one part with at least a row, names and expressions without '#' and names on one line. The printing of such a scop, when it is coherent, has SCoPLib-style schedules and its rows, names and numbers fit in the line buffers, always succeeds. The text has a fixed layout, comments included: each statement is headed by its number, counted from 1 in each scop, and the titles of its domain, scattering, access and body sections carry that number; the announced number of statements is the number printed.",
 "all scops of that form, all names and coefficients",
 "all matrices, sizes, names and statements",
 ["source/scop.c:osl_scop_print_scoplib","source/statement.c:osl_statement_pprint_scoplib","source/relation.c:osl_relation_spprint_polylib_scoplib","source/relation_list.c:osl_relation_list_pprint_access_array_scoplib","source/body.c:osl_body_print_scoplib","source/generic.c:osl_generic_print_options_scoplib"])
p("C50","Copies of strings and extension data share nothing with the original, and freeing them releases exactly what was allocated",
 "For strings, bodies, extbodies, arrays, comments, clay, textual, scatnames, coordinates, scatinfos, annotations, regions, loops, pluto_unrolls, dependences and null: the clone function builds a copy with the same contents entirely in newly allocated memory and leaves the original untouched; the free function releases every block of the structure and nothing else, so cloning and then freeing both, in any order, gives back the memory as it was. The adding functions (osl_strings_add, osl_strings_encapsulate, osl_extbody_add, osl_arrays_add, osl_annotation_append_*, osl_loop_add, osl_pluto_unroll_fill) keep what was there, add what they were given, leak nothing and take over or copy their argument as documented; osl_vector_pmalloc/add/free allocate and release exactly the vectors they handle. Exceptions: strings without array are copied as an empty array, texts of annotations and regions must have no missing line, and osl_annotation_free and osl_annotation_clone do not accept NULL.",
 "all contents, all memories, all choices of addresses by malloc",
 "all allocator behaviours, all contents and sizes",
 ["source/strings.c:osl_strings_clone","source/strings.c:osl_strings_free","source/strings.c:osl_strings_add","source/body.c:osl_body_clone","source/extensions/extbody.c:osl_extbody_add","source/extensions/arrays.c:osl_arrays_clone","source/extensions/annotation.c:osl_annotation_clone","source/extensions/region.c:osl_region_free","source/extensions/loop.c:osl_loop_clone","source/extensions/pluto_unroll.c:osl_pluto_unroll_clone","source/extensions/dependence.c:osl_dependence_nclone","source/vector.c:osl_vector_add"])
p("C51","Whole scops in memory: copies share nothing, freeing leaves no block",
 "osl_scop_clone, osl_statement_nclone/clone, osl_generic_nclone/clone, osl_symbols_nclone/clone, osl_interface_nclone/clone and osl_names_clone build a copy with the same contents (the first n elements for the nclone functions, all for -1) entirely in newly allocated memory, down to every string and every piece of extension data, symbols that hold extensions themselves included, and leave the original untouched; the matching free functions release every block, and nothing else, provided the data of each extension is of the kind of its interface, an extension without interface has no data, and the data of an annotation is not NULL. Copying a scop and freeing the original and the copy in any order leaves the memory as it was. osl_scop_add, osl_statement_add, osl_symbols_add, osl_interface_add and osl_generic_add append without copying or losing memory; the last two stop the process when a URI is missing or already present (with data). osl_generic_lookup returns the data of the first extension with the URI and changes nothing; osl_generic_remove takes that extension out and releases all its memory. Exceptions: an extension without interface leaks the inner blocks of its data; an annotation extension with NULL data dereferences NULL.",
 "all scops, statements, extensions, symbols, registries and names; all memories; all choices of addresses by malloc",
 "unbounded nested structures, all allocator behaviours, all other contents of the memory",
 ["source/scop.c:osl_scop_clone","source/scop.c:osl_scop_free","source/scop.c:osl_scop_add","source/statement.c:osl_statement_nclone","source/statement.c:osl_statement_free","source/generic.c:osl_generic_nclone","source/generic.c:osl_generic_free","source/generic.c:osl_generic_add","source/generic.c:osl_generic_remove","source/generic.c:osl_generic_lookup","source/extensions/symbols.c:osl_symbols_nclone","source/extensions/symbols.c:osl_symbols_free","source/interface.c:osl_interface_nclone","source/interface.c:osl_interface_add","source/names.c:osl_names_clone"])
p("C52","Conversions between the library's integers and the C types int, long and long long",
 "osl_int_get_si, osl_int_get_long and osl_int_get_long_long return exactly the value stored when it fits the C type; when it does not, a checked build stops the process and a release build keeps the low bits. osl_int_set_si, osl_int_set_long, osl_int_set_long_long and the osl_int_init_set functions store exactly the value given whenever the precision can hold it; setting then getting gives the value back; assignment and exchange are exact; a precision the library was not built with stops the process. Exceptions: osl_int_get_long_long goes through long, so it loses the high bits when long has 32 bits; osl_int_init_set_long and osl_int_init_set_long_long with GMP store into a number that was never initialised.",
 "all precisions, all values, 32-bit and 64-bit long, checked and release builds, with or without GMP",
 "all values of three precisions under eight build configurations, not only the host's",
 ["source/int.c:osl_int_get_si","source/int.c:osl_int_get_long","source/int.c:osl_int_get_long_long","source/int.c:osl_int_set_si","source/int.c:osl_int_set_long","source/int.c:osl_int_set_long_long","source/int.c:osl_int_init_set_long","source/int.c:osl_int_swap","source/int.c:osl_int_assign"])
p("C53","Every coherent scop can be saved, its relations are shown with the scop's own names, and the file reads back",
 "osl_scop_print succeeds on every list of scops whose relations are coherent and whose rows fit in the line buffers, with lines the readers accept, and osl_scop_read of the file gives the same scops; no hypothesis on the text is needed. Every extension of the library is printed between its start tag and its end tag, which are the URIs of the OpenScop format. Whenever osl_scop_print succeeds, the context, domains, scatterings and accesses are printed with the parameter names of the scop, the iterators of the statement's body and the names of the arrays extension (the last entry of an identifier wins, DummyN for identifiers without entry); everything unnamed is called P, i, c, l or A followed by its number, with as many names as the largest relation of all the printed scops needs. The file has a fixed layout: each scop begins with its tags, language, context and parameters; each statement is headed by its number, counted from 1 in each scop, and its sections (domain, scattering, access, body) carry that number; the numbers of statements and relations announced are those printed.",
 "all lists of scops, any number of statements, parts, rows and extensions, all names and builds",
 "printing is a composition of fixed size buffers whose success depends on all names and coefficients at once",
 ["source/scop.c:osl_scop_print","source/scop.c:osl_scop_names","source/statement.c:osl_statement_pprint","source/generic.c:osl_generic_sprint","source/extensions/arrays.c:osl_arrays_to_strings","source/interface.c:osl_interface_get_default_registry","include/osl/extensions/"])
p("C54","Editing vectors and constraint matrices in memory: every allocated row, coefficient and GMP number is accounted for",
 "On the blocks the library really allocates (structure, array of row pointers, array of coefficients, GMP numbers and their storage), osl_relation_pmalloc/clone/nclone/free, remove_row, remove_column, insert_blank_row, insert_blank_column, swap_constraints, replace_vector, insert_vector, add_vector, sub_vector, from_vector, concat_vector, replace_constraints, insert_constraints, insert_columns, concat_constraints, equal, extend_output, set_precision, set_same_precision, osl_vector_pmalloc/free/add/sub/add_scalar/mul_scalar/tag_* and osl_int_malloc/free compute exactly the matrices and vectors they are specified to compute; they read and write nothing out of bounds, nothing uninitialised and nothing freed; everything replaced is freed, nothing is freed twice, nothing leaks; arguments that are only read are left untouched, and may be the relation itself (a relation inserted into itself); a rejected call stops before anything is returned. Exception: osl_relation_extend_output on a union whose parts have different precisions reads the coefficients of later parts in the precision of the first one.",
 "all relations, vectors, positions and precisions; all memories; all choices of addresses by malloc",
 "all sizes and contents, all aliasing patterns and all allocator behaviours",
 ["source/relation.c:osl_relation_pmalloc","source/relation.c:osl_relation_free_inside","source/relation.c:osl_relation_free","source/relation.c:osl_relation_nclone","source/relation.c:osl_relation_insert_constraints","source/relation.c:osl_relation_insert_columns","source/relation.c:osl_relation_remove_row","source/relation.c:osl_relation_remove_column","source/relation.c:osl_relation_insert_vector","source/relation.c:osl_relation_concat_constraints","source/relation.c:osl_relation_extend_output","source/relation.c:osl_relation_set_precision","source/relation.c:osl_relation_equal","source/vector.c:osl_vector_pmalloc","source/vector.c:osl_vector_free","source/int.c:osl_int_malloc","source/int.c:osl_int_free","source/int.c:osl_int_clear","source/int.c:osl_int_set_precision"])
p("C55","Dumps show the whole structure at the right level",
 "The osl_*_idump functions write at level n exactly what they write at level 0, with n times the bar in front of each line, for vectors, relations, lists of relations, strings, bodies, names, interfaces, extensions, symbols, statements and scops whose texts hold no newline. The dump of a vector or a union of relations is the title with type and precision, the sizes, one line per row with all its coefficients, the parts separated by two lines. Every structure whose dependences point to statements (without cycle) and whose numbers have less than 2047 digits is dumped without error. Two structures of the library's kinds whose strings are words have the same dump only if they are equal: nothing that a scop holds is left out. Exceptions: dependences without statements (those read from a file), NULL annotations and NULL texts dereference NULL; the texts of annotations, regions and irregular extensions are not indented; a prefix and a suffix of an annotation look the same; a statement that holds a dependence on itself is dumped for ever; longer GMP numbers overflow the buffer.",
 "all structures, levels, names, coefficients and builds, any number of statements, parts, rows and extensions, symbols nested to any depth",
 "unbounded nested structures; that two different structures never have the same dump cannot be tested",
 ["source/vector.c:osl_vector_idump","source/relation.c:osl_relation_idump","source/relation_list.c:osl_relation_list_idump","source/strings.c:osl_strings_idump","source/body.c:osl_body_idump","source/names.c:osl_names_idump","source/interface.c:osl_interface_idump","source/generic.c:osl_generic_idump","source/extensions/symbols.c:osl_symbols_idump","source/extensions/dependence.c:osl_dependence_idump","source/statement.c:osl_statement_idump","source/scop.c:osl_scop_idump","source/int.c:osl_int_print"])
p("C56","Lists of relations, bodies, strings and dependences printed to a file read back",
 "osl_relation_list_print succeeds on every list whose relations are coherent and fit the line buffers, and osl_relation_list_read gives back the relations in the same order; nodes without a relation disappear. The texts of osl_body_print, osl_strings_print and osl_dependence_print read back as the same value. osl_relation_malloc and osl_vector_malloc give zero coefficients in the precision of the environment, and a relation without type or dimensions. A NULL list is the exception: it reads back as one node without relation.",
 "all lists, any number of relations, parts, rows and columns, NULL elements, all bodies and string lists, all builds and environments",
 "unbounded sizes, all coefficient values, all positions of the file",
 ["source/relation_list.c:osl_relation_list_print","source/relation_list.c:osl_relation_list_pprint","source/relation_list.c:osl_relation_list_read","source/relation_list.c:osl_relation_list_pread","source/relation.c:osl_relation_pprint","source/body.c:osl_body_print","source/strings.c:osl_strings_print","source/extensions/dependence.c:osl_dependence_print","source/relation.c:osl_relation_malloc","source/vector.c:osl_vector_malloc"])
p("C57","Conversion of a coefficient to double",
 "osl_int_get_d returns the double nearest to the value (the even one of two) in single and double precision, and the largest double between zero and the value with GMP, an infinity when out of range; values with at most 53 significant bits are exact in every precision, and the order of values is kept. The same value may give different doubles in double precision and in GMP.",
 "all values of all precisions, all builds",
 "2^64 values and unbounded GMP numbers; rounding errors appear on few of them",
 ["source/int.c:osl_int_get_d"])
p("C58","Reading any text ends, and what is accepted is well formed",
 "On every text, even cut or hostile, each reading function returns, stops with an error or is undefined, but never runs for ever, and the cursor only moves forward. Whatever osl_scop_pread returns is a list of scops of version 1 with a language and the registry given; its relations are of the precision asked for, with full matrices of the announced size and a named type, the domain, scattering and accesses of a statement have the right type; each extension has an interface of the registry and data of its kind. When no extension was read as NULL, their URIs are distinct and the scops can be copied. Exceptions: an extension with NULL data hides duplicates, relations in extensions take the precision of the environment, and a scop that fails the integrity check is accepted.",
 "all texts, all end-of-file states, all registries, precisions, environments and builds",
 "the inputs are arbitrary character sequences; a fuzzer only samples them and cannot show termination",
 ["source/scop.c:osl_scop_pread","source/statement.c:osl_statement_pread","source/generic.c:osl_generic_sread","source/generic.c:osl_generic_read","source/generic.c:osl_generic_read_one","source/relation.c:osl_relation_pread","source/relation.c:osl_relation_psread","source/relation.c:osl_relation_psread_polylib","source/strings.c:osl_strings_sread","source/util.c:osl_util_read_int","source/util.c:osl_util_read_tag","source/util.c:osl_util_read_uptoflag","source/extensions/symbols.c:osl_symbols_sread","source/extensions/pluto_unroll.c:osl_pluto_unroll_sread","source/extensions/irregular.c:osl_irregular_sread"])
p("C59","The irregular extension in memory: additions build new structures, old ones can be freed, nothing leaks",
 "osl_irregular_malloc makes an empty structure; osl_irregular_free releases every block of a structure (the arrays, every list of iterators, every iterator and body, every list of guards) and nothing else, and accepts NULL. osl_irregular_add_control, osl_irregular_add_exit and osl_irregular_add_predicates build a structure in newly allocated memory, with a copy of everything the old one holds and the new predicate after the last one of its kind (or the guards of the new statement at the end), leave the old structure and their arguments untouched, and accept parts of the old structure as arguments. After any history of additions in which the replaced structures are freed, exactly the last structure is left and it holds everything in the order given. osl_irregular_clone copies a structure without predicates in memory of its own. Exception: on every structure with a predicate osl_irregular_clone writes outside an array.",
 "all structures, all arguments, all histories of additions, all memories, all choices of addresses by malloc",
 "all contents, histories and allocator behaviours",
 ["source/extensions/irregular.c:osl_irregular_malloc","source/extensions/irregular.c:osl_irregular_free","source/extensions/irregular.c:osl_irregular_clone","source/extensions/irregular.c:osl_irregular_add_control","source/extensions/irregular.c:osl_irregular_add_exit","source/extensions/irregular.c:osl_irregular_add_predicates"])
p("C60","Reading allocates exactly what it returns",
 "The reading functions (words, lines, tags, contents of tags, string lists, relations from files and strings, every kind of extension, symbols, extension lists, statements, scops) allocate exactly the structure that the text describes, in memory of its own: every temporary string, list, registry and discarded relation is released, nothing is freed twice or read after being freed, the registry given is only read, and when the text is rejected the program stops before anything is returned. The default registry holds the eighteen interfaces in order. Reading a file and freeing the scops leaves the memory as it was; for the text printed by osl_scop_print from any savable scops this holds without exception. Exceptions for other texts: each closing tag that stands where an extension is expected leaves one string that nothing points to; an empty tag makes the readers look at memory never written.",
 "all texts, files, precisions, environments, builds and registries, all memories, all choices of addresses by malloc",
 "all texts and all allocator behaviours; a leak checker only sees the texts it is run on",
 ["source/util.c:osl_util_read_string","source/util.c:osl_util_read_tag","source/util.c:osl_util_read_uptoflag","source/strings.c:osl_strings_sread","source/strings.c:osl_strings_read","source/relation.c:osl_relation_pread","source/relation.c:osl_relation_psread","source/relation.c:osl_relation_psread_polylib","source/relation_list.c:osl_relation_list_pread","source/interface.c:osl_interface_get_default_registry","source/generic.c:osl_generic_sread_one","source/generic.c:osl_generic_read_one","source/generic.c:osl_generic_sread","source/generic.c:osl_generic_read","source/extensions/symbols.c:osl_symbols_sread","source/extensions/dependence.c:osl_dependence_psread","source/statement.c:osl_statement_dispatch","source/statement.c:osl_statement_pread","source/scop.c:osl_scop_pread","source/scop.c:osl_scop_read"])
p("C61","What the library calls equal",
 "On objects that can be cloned, whenever osl_scop_equal, osl_statement_equal, osl_generic_equal, osl_symbols_equal or the equal function of an extension answers, the answer is yes exactly when the two sides are alike: same versions, languages, contexts, domains, scatterings and accesses in the same order; extension lists of the same length in which each extension of the first one has in the second one, wherever it is, an extension with the same URI, the same functions and like data; data of the other kinds identical, but: textual data and comments are never compared, array names, extbody accesses and loops may be in another order, of the symbols and of the registry only the first one is compared, and regions are never found equal. Extension data against NULL is different, but for textual data. There is always an answer when the names compared are present, loops have a private list and a user string all or none, there is no region, and both scops have statements.",
 "all pairs of lists of scops, statements, extensions and symbols, all builds",
 "all pairs of structures, with nested symbols, in any order",
 ["source/scop.c:osl_scop_equal","source/statement.c:osl_statement_equal","source/generic.c:osl_generic_equal","source/interface.c:osl_interface_equal","source/extensions/symbols.c:osl_symbols_equal","source/extensions/loop.c:osl_loop_equal","source/extensions/extbody.c:osl_extbody_equal","source/extensions/arrays.c:osl_arrays_equal","source/extensions/region.c:osl_region_equal","source/extensions/comment.c:osl_comment_equal","source/extensions/textual.c:osl_textual_equal"])
p("C62","Printing leaves the memory as it was",
 "osl_relation_pprint, osl_relation_spprint, osl_relation_spprint_polylib, osl_relation_sprint, the names of the columns and the expressions of the rows give the texts of the other properties, and when they return the memory is exactly what it was before the call, plus the string returned (and the array of names): the buffers that grow by moving, the names generated when none are given, the columns, comments and expressions are all released once, and the coefficients whose sign is changed in place while an expression is printed have their value back. Only exception: for an access relation without output dimension, the name given to the array is lost.",
 "all unions of relations, all coefficients of all precisions, all names or none, all memories in which they live, all allocators and builds",
 "all relations and all places at which a buffer is grown, all allocators; a leak or a coefficient left opposed does not show in the text",
 ["source/relation.c:osl_relation_spprint","source/relation.c:osl_relation_pprint","source/relation.c:osl_relation_spprint_polylib","source/relation.c:osl_relation_subexpression","source/relation.c:osl_relation_expression","source/relation.c:osl_relation_strings","source/relation.c:osl_relation_names","source/names.c:osl_names_generate","source/util.c:osl_util_safe_strcat"])
p("C63","Printing extensions leaves the memory as it was",
 "osl_generic_sprint and osl_generic_print on every list of extensions, osl_symbols_sprint on every list of symbols (which contain extensions, to any depth) and the sprint function of every other interface on its data or on NULL give the texts of the other properties, and when they return the memory is exactly what it was before the call, plus the string returned: the text of every extension, at every level, is released once, and the extensions are read only. When the value has no text (an interface that answers NULL), nothing is allocated.",
 "all lists of extensions and symbols, nested to any depth, in all memories, all allocators and builds",
 "all extensions and all nestings, all allocators; a leak or a block freed twice does not show in the text",
 ["source/generic.c:osl_generic_sprint","source/generic.c:osl_generic_print","source/extensions/symbols.c:osl_symbols_sprint","source/util.c:osl_util_safe_strcat"])
p("C64","Saving a scop leaves the memory as it was",
 "osl_scop_print, osl_statement_pprint and osl_statement_print and osl_relation_list_pprint_elts give exactly the text of the other properties (C35, C53), and when they return the memory is exactly what it was before the call: generated names, copied names, the names taken from the arrays extension, the names of the iterators of each body and of the parameters that stand in for the generated ones for a while, and the text of every relation are all released once, and nothing of the scop or of the names given has changed. The integrity checks, the attributes and the counts give their answers and change nothing; osl_arrays_to_strings adds the new strings only. A scop that can be saved (C53) is saved this way, and saving then reading leaves the copy beside the original and nothing else.",
 "all lists of scops, statements and relation lists whose relations have dimensions in order, with all extensions, in all memories that contain them, all allocators and builds, with or without names",
 "all scops and all allocators; a leak, a name left in the place of another or a string freed twice does not show in the file",
 ["source/scop.c:osl_scop_print","source/scop.c:osl_scop_integrity_check","source/statement.c:osl_statement_pprint","source/statement.c:osl_statement_integrity_check","source/relation_list.c:osl_relation_list_pprint_elts","source/extensions/arrays.c:osl_arrays_to_strings"])
p("C65","Reading, copying and releasing scops with every coefficient in memory",
 "With every coefficient in a variable of its own (with GMP: a number that owns memory), osl_relation_pread, psread and psread_polylib, osl_relation_list_pread, osl_statement_pread, osl_scop_pread and osl_scop_read write into memory of their own exactly what the text says, release every temporary but the names of closing tags (C60), and leave the rest of the memory as it was; a text with an error stops the process. osl_scop_clone, osl_statement_clone and nclone, osl_relation_list_clone, node and filter make copies that share nothing with the original, which stays as it was; osl_scop_free, osl_statement_free and osl_relation_list_free clear every number and leave nothing. So reading, printing and releasing a file leaves the memory as it was, and saving scops (C53) and reading the text makes a second copy beside the first.",
 "all texts, precisions, registries and environments for readers; all well-formed values with all extensions for copies and releases; all memories and allocators; all builds",
 "all texts and all allocators; a number written into another row, a coefficient not cleared or a matrix shared by two relations does not show in a test that compares values",
 ["source/relation.c:osl_relation_pread","source/relation.c:osl_relation_psread_polylib","source/relation_list.c:osl_relation_list_pread","source/relation_list.c:osl_relation_list_filter","source/statement.c:osl_statement_pread","source/statement.c:osl_statement_dispatch","source/scop.c:osl_scop_pread","source/scop.c:osl_scop_read","source/scop.c:osl_scop_clone","source/scop.c:osl_scop_free"])
p("C66","Unions, lists and the transformations of statements and scops with every coefficient in memory",
 "With every coefficient in a variable of its own: osl_relation_add appends the second union to the first in place and osl_relation_union makes a copy of both, one after the other, in memory of its own; osl_relation_remove_part unlinks and releases a part that is not the first, does nothing when the part is not in the memory of the union, and given the first part returns the rest without releasing anything (that part is lost). osl_relation_list_add, concat, push, pop, dup, drop, destroy and set_type compute the list they are named after, with nothing lost and nothing shared; after any sequence of such calls the list is the one of the abstract calls, and releasing it leaves no block. osl_statement_remove_unions leaves its statement as it was and makes, in memory of its own, one statement without unions for each pair of a part of the domain and a part of the scattering, which together execute exactly the iterations at the dates of the original; releasing the result gives the memory back as it was. osl_scop_normalize_scattering changes in place the scatterings of the first scop only: all get the largest number of output dimensions, the schedules mean the same, the old matrices are released.",
 "all unions, lists, statements and scops with all extensions, any length, all sequences of list calls, all memories and allocators, all builds",
 "histories of any length and statements of any shape; a part shared by two statements, a coefficient not cleared or a list node lost does not show in a test that compares values",
 ["source/relation.c:osl_relation_add","source/relation.c:osl_relation_union","source/relation.c:osl_relation_remove_part","source/relation_list.c:osl_relation_list_concat","source/relation_list.c:osl_relation_list_dup","source/relation_list.c:osl_relation_list_destroy","source/relation_list.c:osl_relation_list_set_type","source/statement.c:osl_statement_remove_unions","source/scop.c:osl_scop_normalize_scattering"])
p("C67","Removing the unions of whole scops with every coefficient in memory",
 "With every coefficient in a variable of its own and all extensions: osl_scop_remove_unions leaves its scops as they were and makes, in memory of its own, for each scop the same scop with other statements: those made of the last statement (one for each pair of a part of its domain and a part of its scattering) and, of each other statement, the first one made of it only. When only the last statement of each scop has unions this is the promise: no statement of the result has a union, together they execute the iterations of the original at the same dates, and releasing the result gives the memory back as it was. Otherwise the other statements made are lost: they are still allocated, nothing refers to them, and the iterations they execute are not executed by the result.",
 "all lists of scops of any length with all extensions, all numbers of parts, all iterations, dates and parameters, all memories and allocators, all builds",
 "all shapes of scops: a test on scops with one statement, or with unions in the last one only, does not see the lost pieces, and no test of values sees the memory",
 ["source/scop.c:osl_scop_remove_unions","source/statement.c:osl_statement_remove_unions","source/scop.c:osl_scop_free"])
open('/verif/properties.jsonl','w').write(''.join(json.dumps(x)+'\n' for x in P))
