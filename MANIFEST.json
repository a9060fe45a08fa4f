{
 "claims": [
  {
   "property": "C01",
   "status": "proved",
   "theorems": [
    "C01_add_exact",
    "C01_add_overflow_stops",
    "C01_add_guard_refuted",
    "C01_add_si_exact",
    "C01_add_si_overflow_stops",
    "C01_add_si_guard_refuted",
    "C01_increment_decrement",
    "C01_increment_decrement_overflow_stops",
    "C01_sub_exact",
    "C01_sub_overflow_stops",
    "C01_sub_min_refuted"
   ],
   "note": "Exactness and stop-on-overflow for all precisions; the exceptions named in the statement are *_refuted theorems (the guard negates the most negative value)."
  },
  {
   "property": "C02",
   "status": "proved",
   "theorems": [
    "C02_mul_exact",
    "C02_mul_si_exact",
    "C02_mul_overflow_refuted",
    "C02_oppose_exact",
    "C02_abs_exact"
   ],
   "note": "Exact whenever representable; C02_mul_overflow_refuted: an unrepresentable product is computed before it is checked, so no build stops with the promised error."
  },
  {
   "property": "C03",
   "status": "proved",
   "theorems": [
    "C03_floor_div_q",
    "C03_floor_div_r",
    "C03_floor_div_q_r",
    "C03_floor_div_r_refuted",
    "C03_mod",
    "C03_div_exact",
    "C03_precisions_agree"
   ],
   "note": "All divisions proved against floor/Euclid for every representable operand with representable quotient; floor_div_r near the minimum is refuted (intermediate product overflows)."
  },
  {
   "property": "C04",
   "status": "proved",
   "theorems": [
    "C04_gcd",
    "C04_gcd_min_refuted",
    "C04_lcm"
   ],
   "note": "For all operands except the most negative value, which is undefined (refuted theorem)."
  },
  {
   "property": "C05",
   "status": "proved",
   "theorems": [
    "C05_order",
    "C05_sign",
    "C05_divisible",
    "C05_order_llp64_refuted"
   ],
   "note": "For every data model except 64-bit integers with a 32-bit long, where the order is refuted."
  },
  {
   "property": "C06",
   "status": "proved",
   "theorems": [
    "C06_sprint_sread",
    "C06_sprint_txt_sread",
    "C06_sread_position_refuted",
    "C06_sread_eof_refuted",
    "C06_size_in_base_2",
    "C06_size_in_base_10"
   ],
   "note": "Value round-trip for all values and contexts; the documented position update and the detection of the end of input are refuted."
  },
  {
   "property": "C07",
   "status": "proved",
   "theorems": [
    "C07_set_precision",
    "C07_set_precision_refuted",
    "C07_relation_set_precision",
    "C07_relation_set_same_precision",
    "C07_relation_set_precision_refuted"
   ],
   "note": "Values within C int (or unchanged precision) are preserved; outside, the conversion stops or truncates (refuted theorems)."
  },
  {
   "property": "C08",
   "status": "proved",
   "theorems": [
    "C08_add_componentwise",
    "C08_sub_componentwise",
    "C08_add_overflow_stops",
    "C08_mismatch_stops",
    "C08_add_scalar",
    "C08_add_scalar_too_short_stops",
    "C08_mul_scalar",
    "C08_tag",
    "C08_tag_empty_stops",
    "C08_equal",
    "C08_equal_one_null_refuted",
    "C08_is_scalar",
    "C08_malloc_zero"
   ],
   "note": "For vectors of every size; equality with exactly one NULL argument dereferences it (refuted theorem)."
  },
  {
   "property": "C09",
   "status": "proved",
   "theorems": [
    "C09_equal_memory",
    "C09_equal_self",
    "C09_list_equal",
    "C09_equal_structural",
    "C09_equal_equivalence",
    "C09_part_equal"
   ],
   "note": "For all well-formed unions of any size, at value level and in memory (also when both arguments are the same object)."
  },
  {
   "property": "C10",
   "status": "proved",
   "theorems": [
    "C10_clone_independent",
    "C10_nclone_independent",
    "C10_list_clone_independent",
    "C10_clone_survives",
    "C10_generic_clone_independent",
    "C10_generic_clone_duplicates_refuted",
    "C10_scop_clone_survives",
    "C10_strings_clone_independent",
    "C10_copy_survives",
    "C10_clone_equal",
    "C10_clone_prefix"
   ],
   "note": "Relations, relation lists, strings, extension lists, interface lists, statements and scops: equality of contents and independence proved at memory level for every allocator; extension data in C50. A list with two extensions of the same URI cannot be copied (refuted theorem)."
  },
  {
   "property": "C11",
   "status": "proved",
   "theorems": [
    "C11_union_parts",
    "C11_union_denotes"
   ],
   "note": "For all unions and all integer points."
  },
  {
   "property": "C12",
   "status": "proved",
   "theorems": [
    "C12_insert_row",
    "C12_insert_last",
    "C12_replace_remove_row",
    "C12_swap_rows",
    "C12_row_edits_well_formed",
    "C12_row_edits_checked",
    "C12_insert_remove_inverse"
   ],
   "note": "Contents after each edit, preservation of well-formedness, all range checks, and insert/remove inverse."
  },
  {
   "property": "C13",
   "status": "proved",
   "theorems": [
    "C13_column_edits",
    "C13_column_edits_well_formed",
    "C13_blank_column_is_cylinder",
    "C13_insert_remove_inverse"
   ],
   "note": "Contents, cylinder semantics, range checks, inverse."
  },
  {
   "property": "C14",
   "status": "proved",
   "theorems": [
    "C14_insert_intersects",
    "C14_insert_vector_constrains",
    "C14_concat_intersects",
    "C14_concat_keeps_attributes_refuted",
    "C14_concat_checked"
   ],
   "note": "Denotation proved for insert_constraints, insert_vector, concat_constraints; loss of type/attributes by concat is stated as a refuted theorem."
  },
  {
   "property": "C15",
   "status": "proved",
   "theorems": [
    "C15_swap_same_set",
    "C15_swap_involutive",
    "C15_insert_position_irrelevant"
   ],
   "note": "Denotation and involution."
  },
  {
   "property": "C16",
   "status": "proved",
   "theorems": [
    "C16_extend_output",
    "C16_extend_output_shrink_stops",
    "C16_extend_output_null_refuted",
    "C16_normalize_scattering"
   ],
   "note": "extend_output for unions of one precision and number of outputs (NULL dereferences: refuted theorem). normalize_scattering: every scattering of the first scop of the list gets the same number of outputs, the largest, nothing else changes and the schedules mean the same. Quantifier: the code assumes that the parts of a union share their precision and output count."
  },
  {
   "property": "C17",
   "status": "proved",
   "theorems": [
    "C17_integrity_sound",
    "C17_integrity_complete",
    "C17_type_of_every_part_refuted"
   ],
   "note": "Soundness in checked builds and completeness; only the first part's type is looked at (refuted theorem)."
  },
  {
   "property": "C18",
   "status": "proved",
   "theorems": [
    "C18_array_id_sound",
    "C18_array_id_complete",
    "C18_array_id_release_refuted"
   ],
   "note": "Sound in checked builds and complete for int-sized coefficients; release build truncation is refuted."
  },
  {
   "property": "C19",
   "status": "proved",
   "theorems": [
    "C19_relation_attributes",
    "C19_list_attributes",
    "C19_statement_attributes",
    "C19_scop_attributes"
   ],
   "note": "Relations, lists, statements and scops; the maximum is attained or is the initial value (or the code's OSL_UNDEFINED floor)."
  },
  {
   "property": "C20",
   "status": "proved",
   "theorems": [
    "C20_prints",
    "C20_sprints",
    "C20_total_roundtrip",
    "C20_file_roundtrip",
    "C20_print_read",
    "C20_null_refuted",
    "C20_access_type_refuted",
    "C20_wide_refuted",
    "C20_access_without_array_refuted"
   ],
   "note": "For every coherent union with supported type and few enough columns for the line buffers (explicit bound on columns, coefficient digits and name lengths) the text is printed and reads back as the same union, and the stream is left just after it. NULL, the type ACCESS, very wide relations and access relations without array identifier are refuted theorems, and excluded by the statement."
  },
  {
   "property": "C21",
   "status": "proved",
   "theorems": [
    "C21_string_read",
    "C21_single_part_roundtrip",
    "C21_union_refuted"
   ],
   "note": "Single-part relations read back exactly; for unions the types of the parts after the first are lost (exact result proved, full claim refuted)."
  },
  {
   "property": "C22",
   "status": "proved",
   "theorems": [
    "C22_add",
    "C22_concat",
    "C22_node",
    "C22_push",
    "C22_pop",
    "C22_pop_empty",
    "C22_dup",
    "C22_drop",
    "C22_destroy",
    "C22_filter",
    "C22_count",
    "C22_set_type",
    "C22_set_type_refuted",
    "C22_histories"
   ],
   "note": "Every operation, and every sequence of operations, on the pointer-level model, with the exact memory. osl_relation_list_set_type (not in the statement) only sets the first part of each union (refuted variant)."
  },
  {
   "property": "C23",
   "status": "proved",
   "theorems": [
    "C23_lookup",
    "C23_add",
    "C23_add_stops",
    "C23_remove",
    "C23_count",
    "C23_histories",
    "C23_histories_stop",
    "C23_null_data_refuted",
    "C23_duplicates_in_addition_refuted"
   ],
   "note": "Lookup, add, remove, count, and all histories (any length) proved; refuted: an extension with NULL data, or duplicates inside the added list, are not detected."
  },
  {
   "property": "C24",
   "status": "proved",
   "theorems": [
    "C24_lookup",
    "C24_lookup_null",
    "C24_add",
    "C24_add_stops",
    "C24_default_registry",
    "C24_default_registry_resolves",
    "C24_clone",
    "C24_nclone",
    "C24_clone_stops",
    "C24_equal",
    "C24_clone_equal",
    "C24_equal_null_uri_refuted"
   ],
   "note": "For all registries and URIs; default registry computed from the model. Exception stated as refuted theorem: osl_interface_equal on NULL URIs dereferences NULL."
  },
  {
   "property": "C25",
   "status": "proved",
   "theorems": [
    "C25_string_skip_exact",
    "C25_string_skip_unique",
    "C25_string_skip_idempotent",
    "C25_file_skip_agrees",
    "C25_long_blank_line_refuted"
   ],
   "note": "String skipper: exact, unique, idempotent on all strings. Stream skipper agrees with it on texts without over-long lines; the long-line case is refuted."
  },
  {
   "property": "C26",
   "status": "proved",
   "theorems": [
    "C26_uptoflag_string",
    "C26_uptoflag_string_total",
    "C26_uptoflag_file",
    "C26_uptotag",
    "C26_empty_flag_refuted",
    "C26_tag_content",
    "C26_tag_content_missing",
    "C26_tag_content_first_char_refuted",
    "C26_tag_content_empty_refuted"
   ],
   "note": "Up-to-flag/tag reading proved for all texts and non-empty flags (file: flags without byte 255). osl_util_tag_content drops the first character of the content and is undefined on empty content (refuted); proved with that exception."
  },
  {
   "property": "C27",
   "status": "proved",
   "theorems": [
    "C27_substitution_pieces",
    "C27_placeholders_distinct",
    "C27_empty_identifier_refuted"
   ],
   "note": "Termination, exactness (soundness and completeness of the replaced occurrences), parenthesis rule and distinct placeholders; an empty identifier loops forever (refuted theorem, excluded by the quantifier)."
  },
  {
   "property": "C28",
   "status": "proved",
   "theorems": [
    "C28_string_roundtrip",
    "C28_file_roundtrip",
    "C28_double_space_refuted",
    "C28_end_of_input_refuted",
    "C28_empty_list_refuted",
    "C28_read_at_eof_refuted",
    "C28_long_string_refuted"
   ],
   "note": "Non-empty lists of non-empty blank- and comment-free strings below the buffer size, string and stream. Other inputs (double separators, end of input, empty list, EOF, long strings) are refuted."
  },
  {
   "property": "C29",
   "status": "proved",
   "theorems": [
    "C29_find",
    "C29_add_size",
    "C29_size",
    "C29_equal",
    "C29_equal_null",
    "C29_clone_equal",
    "C29_concatenation",
    "C29_generate",
    "C29_generate_negative_refuted"
   ],
   "note": "All lists, strings and non-negative counts; a negative count writes out of bounds (refuted theorem)."
  },
  {
   "property": "C30",
   "status": "proved",
   "theorems": [
    "C30_statement",
    "C30_statement_null",
    "C30_scop_exact",
    "C30_scop_last",
    "C30_scop_refuted"
   ],
   "note": "Statement level proved in full (count, single parts, accesses/extensions kept, same (iteration,date) pairs, source unchanged). Scop level: exact behaviour proved for every scop list, the promise proved when only the last statement has unions, and refuted in general (a statement is lost and leaked)."
  },
  {
   "property": "C31",
   "status": "proved",
   "theorems": [
    "C31_statement_clone",
    "C31_statement_nclone",
    "C31_scop_clone",
    "C31_extension_equal",
    "C31_statement_equal",
    "C31_statement_equal_null_refuted",
    "C31_scop_equal",
    "C31_statement_equal_self",
    "C31_scop_equal_self",
    "C31_statement_clone_equal",
    "C31_scop_clone_equal",
    "C31_equivalence",
    "C31_scop_registry_refuted",
    "C31_scop_language_refuted",
    "C31_extension_duplicates_refuted"
   ],
   "note": "Memory level, all sizes, every allocator. The exceptions in the quantifier are refuted theorems: osl_statement_equal dereferences a NULL argument, osl_scop_equal calls strcmp on a NULL language and ignores all but the first interface of the registries; lists with duplicate URIs are not compared correctly."
  },
  {
   "property": "C32",
   "status": "proved",
   "theorems": [
    "C32_roundtrip",
    "C32_clone_equal",
    "C32_equal",
    "C32_equal_any",
    "C32_equal_refuted",
    "C32_add",
    "C32_index_from_id",
    "C32_index_from_name",
    "C32_to_strings",
    "C32_to_strings_refuted"
   ],
   "note": "Round-trip, add, index lookups, clones and the table of names proved; equality is exact for tables without repeated entries, with repetitions it is a subset test (refuted), and non-positive identifiers make osl_arrays_to_strings write out of bounds (refuted)."
  },
  {
   "property": "C33",
   "status": "proved",
   "theorems": [
    "C33_extbody_roundtrip",
    "C33_coordinates_roundtrip",
    "C33_coordinates_equal",
    "C33_coordinates_null_refuted",
    "C33_scatnames_roundtrip",
    "C33_scatnames_equal",
    "C33_scatinfos_equal",
    "C33_scatinfos_roundtrip",
    "C33_annotation_equal",
    "C33_annotation_roundtrip",
    "C33_region_roundtrip",
    "C33_region_equal_refuted",
    "C33_annotation_null_refuted",
    "C33_annotation_pragma_refuted",
    "C33_loop_roundtrip",
    "C33_loop_clone",
    "C33_loop_equal",
    "C33_loop_equal_refuted",
    "C33_loop_subset_refuted",
    "C33_extbody_subset_refuted",
    "C33_pluto_unroll_roundtrip",
    "C33_pluto_unroll_equal",
    "C33_pluto_unroll_clone",
    "C33_pluto_factor_refuted",
    "C33_pluto_long_refuted",
    "C33_comment_roundtrip",
    "C33_comment_equal_refuted",
    "C33_comment_long_refuted",
    "C33_clay_roundtrip",
    "C33_clay_equal",
    "C33_clay_newline_refuted",
    "C33_textual_refuted",
    "C33_null_roundtrip",
    "C33_dependence_roundtrip",
    "C33_dependence_equal",
    "C33_dependence_null_refuted",
    "C33_dependence_no_domain_refuted",
    "C33_symbols_roundtrip",
    "C33_symbols_equal",
    "C33_symbols_refuted",
    "C33_symbols_equal_refuted",
    "C33_symbols_long_refuted"
   ],
   "note": "Round-trip proved for coordinates, scatnames, scatinfos, extbody, loop, pluto_unroll, annotation, region, dependence (single-part domains), clay, comment, null, with exact format constraints. Refuted: textual is never printed, region/loop/dependence equality is undefined on some inputs, comment equality accepts everything, long lists or texts overflow, '#' and leading blanks are lost. Symbols round-trip when all four fields are present and the text has fewer than 2048 characters (refuted otherwise); only the first symbols of two lists are compared (refuted)."
  },
  {
   "property": "C34",
   "status": "proved",
   "theorems": [
    "C34_body_roundtrip",
    "C34_equal_exact",
    "C34_several_expressions_refuted",
    "C34_hash_refuted",
    "C34_empty_refuted"
   ],
   "note": "For any number of iterators and one non-empty one-line expression without '#' and leading blank (all of which are refuted otherwise)."
  },
  {
   "property": "C35",
   "status": "proved",
   "theorems": [
    "C35_scop_roundtrip",
    "C35_scop_identical",
    "C35_scop_equal",
    "C35_statement_roundtrip",
    "C35_generic_roundtrip",
    "C35_comment_refuted",
    "C35_empty_scop_refuted",
    "C35_no_context_refuted",
    "C35_parameters_refuted",
    "C35_duplicate_refuted"
   ],
   "note": "C35_scop_roundtrip: any list of scops of the format (scop_ok, SaveSpec.v) that was printed reads back as reread_scop of it, the same scop up to a newline gained by comments in the scop's extension list; identical without comments and symbols (C35_scop_identical); accepted by osl_scop_equal (C35_scop_equal) except regions and non-uniform loops whose own equality is undefined. Also for statements and lists of extensions. Refuted outside: no context, no relation at all, parameters that are not strings, duplicate URIs, comment newline."
  },
  {
   "property": "C36",
   "status": "proved",
   "theorems": [
    "C36_integrity_sound",
    "C36_integrity_complete"
   ],
   "note": "Sound in checked builds (C17), and complete for int-sized coefficients and body data under the body URI. Hypotheses: well-formed relations, C-sized fields."
  },
  {
   "property": "C37",
   "status": "proved",
   "theorems": [
    "C37_strcat_history",
    "C37_wrong_mark_refuted"
   ],
   "note": "For every history of appends starting from a buffer whose mark is its size."
  },
  {
   "property": "C38",
   "status": "proved",
   "theorems": [
    "C38_precision",
    "C38_precision_supported"
   ],
   "note": "All environment values and both builds."
  },
  {
   "property": "C39",
   "status": "proved",
   "theorems": [
    "C39_add_vector_sound",
    "C39_sub_vector_equality_sound",
    "C39_sub_vector_inequality_refuted"
   ],
   "note": "add_vector sound; sub_vector sound for equalities and refuted for inequalities."
  },
  {
   "property": "C40",
   "status": "proved",
   "theorems": [
    "C40_relation_free",
    "C40_relation_add",
    "C40_relation_union",
    "C40_remove_part",
    "C40_remove_part_absent",
    "C40_remove_part_head_refuted",
    "C40_list_free",
    "C40_generic_free",
    "C40_generic_remove_node",
    "C40_generic_remove_absent",
    "C40_interface_free",
    "C40_scops_storable",
    "C40_statement_free",
    "C40_scop_free",
    "C40_statement_add",
    "C40_scop_add",
    "C40_statement_number",
    "C40_scop_clone_free",
    "C40_scop_remove_unions_refuted"
   ],
   "note": "Exact memory of every constructor/destructor/add/remove on relations, relation lists, extensions, interfaces, statements, scops; leaks stated as refuted theorems (relation remove_part of the head, scop remove_unions). The data of an extension is one opaque block here; its real blocks are in C50."
  },
  {
   "property": "C41",
   "status": "proved",
   "theorems": [
    "C41_read_int_agrees",
    "C41_read_int_eof_refuted",
    "C41_read_line_agrees",
    "C41_read_line_overflow_refuted"
   ],
   "note": "For texts with a meaningful character left; at the end of input the stream form passes NULL to sscanf (refuted theorem)."
  },
  {
   "property": "C42",
   "status": "proved",
   "theorems": [
    "C42_short_row_rejected",
    "C42_trailing_blank_refuted",
    "C42_string_refuted"
   ],
   "note": "The two cases the check misses (blank after the last number, string reader) are refuted theorems."
  },
  {
   "property": "C43",
   "status": "proved",
   "theorems": [
    "C43_subexpression",
    "C43_expression",
    "C43_simple_output",
    "C43_comment",
    "C43_simple_output_range_refuted",
    "C43_long_refuted",
    "C43_overflow_refuted",
    "C43_header",
    "C43_names"
   ],
   "note": "Comments, expressions, simple outputs, column names and header line, for all relations and points in debug builds (the array identifier is truncated in release builds, see C18). Refuted at the limits: the range check of osl_relation_is_simple_output accepts one row too many, comments of 2047 characters or more are cut, longer expressions overflow their buffer."
  },
  {
   "property": "C44",
   "status": "proved",
   "theorems": [
    "C44_data",
    "C44_extensions",
    "C44_symbols",
    "C44_interfaces",
    "C44_statements",
    "C44_scops",
    "C44_names",
    "C44_duplicate_refuted",
    "C44_no_interface_refuted",
    "C44_annotation_refuted",
    "C44_region_refuted"
   ],
   "note": "All kinds of data, extensions, symbols, interfaces, names, statements and scops. Refuted outside the stated conditions: duplicate URIs stop the program, extensions without interface are dropped, NULL annotations or lines are dereferenced, regions cannot be compared. That nothing is shared is C10."
  },
  {
   "property": "C45",
   "status": "proved",
   "theorems": [
    "C45_sound",
    "C45_complete",
    "C45_several",
    "C45_meaning",
    "C45_null_refuted",
    "C45_function_refuted"
   ],
   "note": "Sound and complete for scops whose statements have scatterings, in debug builds for soundness (as C36). Refuted: NULL scop or missing scattering is dereferenced; inequality rows, missing rows and further parts of the scattering are not checked, so an accepted scattering need not be a function."
  },
  {
   "property": "C46",
   "status": "proved",
   "theorems": [
    "C46_add",
    "C46_register",
    "C46_textual_refuted",
    "C46_duplicates_refuted"
   ],
   "note": "For all registries. Refuted: the extraction of an extension kept as text, announced by the documentation, uses the data as if it were the extension; duplicates inside the new list are not detected."
  },
  {
   "property": "C47",
   "status": "proved",
   "theorems": [
    "C47_region_texts",
    "C47_region_new",
    "C47_annotation_texts",
    "C47_annotation_new",
    "C47_extbody",
    "C47_extbody_new",
    "C47_unroll_fill",
    "C47_loops",
    "C47_symbols",
    "C47_scops",
    "C47_regions_count",
    "C47_dependences",
    "C47_dependence_cursor_refuted",
    "C47_get_body",
    "C47_get_body_null",
    "C47_nb_iterators",
    "C47_nb_parameters"
   ],
   "note": "Histories of any length. osl_dependence_add with a cursor that is not on the last element loses the elements after it (refuted variant)."
  },
  {
   "property": "C48",
   "status": "proved",
   "theorems": [
    "C48_add",
    "C48_history",
    "C48_clone_no_predicate",
    "C48_clone_refuted",
    "C48_equal_same_shape",
    "C48_equal_refuted",
    "C48_print",
    "C48_print_grows",
    "C48_print_long_refuted",
    "C48_roundtrip_no_predicate",
    "C48_read_refuted",
    "C48_tags_refuted"
   ],
   "note": "Additions: proved for all histories. Printing: proved for texts shorter than 2048 characters. The rest is false of the code as soon as there is a predicate: clone writes outside an array, equality ignores which predicates guard a statement and lets differences cancel, strdup evaluates strtok twice so that bodies and iterators are never read back, longer texts reuse an exhausted va_list; the *_no_predicate and *_same_shape theorems cover what remains."
  },
  {
   "property": "C49",
   "status": "proved",
   "theorems": [
    "C49_layout",
    "C49_file_layout",
    "C49_prints",
    "C49_domain",
    "C49_matrix",
    "C49_accesses",
    "C49_statements",
    "C49_scop",
    "C49_incompatible",
    "C49_sizes",
    "C49_access_sizes",
    "C49_scattering_faithful",
    "C49_domain_faithful",
    "C49_fake_rows_refuted",
    "C49_access_refuted",
    "C49_free_iterator_refuted",
    "C49_null_refuted"
   ],
   "note": "Proved for every text that is produced (no bound on sizes), with the exceptions named in the statement. Outside them the format is broken: C49_fake_rows_refuted (adding the iterator to a scattering of 2 or 3 rows drops rows, of 4 or more loops forever; osl_statement_pprint_scoplib never asks for that, a direct call of osl_relation_spprint_scoplib can), C49_access_refuted (may-writes, unions, empty accesses, no access), C49_free_iterator_refuted (a domain with an iterator but no constraint), C49_null_refuted. C49_prints: totality (every expressible scop whose rows fit is printed); C49_layout and C49_file_layout: the exact layout with the comments and statement numbers (LayoutSpec.v)."
  },
  {
   "property": "C50",
   "status": "proved",
   "theorems": [
    "C50_malloc",
    "C50_body_clone",
    "C50_extbody_clone",
    "C50_arrays_clone",
    "C50_comment_clone",
    "C50_scatnames_clone",
    "C50_coordinates_clone",
    "C50_scatinfos_clone",
    "C50_annotation_clone",
    "C50_region_clone",
    "C50_loop_clone",
    "C50_pluto_unroll_clone",
    "C50_dependence_clone",
    "C50_null_clone",
    "C50_strings_free",
    "C50_body_free",
    "C50_extbody_free",
    "C50_arrays_free",
    "C50_comment_free",
    "C50_scatnames_free",
    "C50_coordinates_free",
    "C50_scatinfos_free",
    "C50_annotation_free",
    "C50_region_free",
    "C50_loop_free",
    "C50_pluto_unroll_free",
    "C50_dependence_free",
    "C50_null_free",
    "C50_vector_free",
    "C50_clone_then_free",
    "C50_extbody_add",
    "C50_arrays_add",
    "C50_annotation_append",
    "C50_loop_add",
    "C50_strings_add",
    "C50_strings_encapsulate",
    "C50_strings_size",
    "C50_pluto_unroll_fill",
    "C50_vector_pmalloc",
    "C50_vector_add",
    "C50_annotation_null_refuted",
    "C50_values_exist"
   ],
   "note": "Memory level, every kind of extension data, every allocator. NULL annotations: refuted theorem. C50_malloc: what the allocation functions give."
  },
  {
   "property": "C51",
   "status": "proved",
   "theorems": [
    "C51_scop_clone",
    "C51_statement_nclone",
    "C51_statement_clone",
    "C51_generic_nclone",
    "C51_generic_clone",
    "C51_symbols_nclone",
    "C51_symbols_clone",
    "C51_interface_nclone",
    "C51_interface_clone",
    "C51_names_clone",
    "C51_scop_free",
    "C51_statement_free",
    "C51_generic_free",
    "C51_symbols_free",
    "C51_interface_free",
    "C51_names_free",
    "C51_scop_clone_free",
    "C51_scop_add",
    "C51_statement_add",
    "C51_symbols_add",
    "C51_generic_add",
    "C51_generic_add_stops",
    "C51_interface_add",
    "C51_interface_add_stops",
    "C51_generic_lookup",
    "C51_generic_count",
    "C51_generic_remove",
    "C51_unregistered_leak_refuted",
    "C51_annotation_without_data_refuted",
    "C51_values_exist",
    "C51_malloc",
    "C51_interface_malloc",
    "C51_generic_shell"
   ],
   "note": "Memory level with the real blocks of every string and of every kind of extension data, for every allocator and every other content of the memory. Extensions without interface and annotations without data: refuted theorems."
  },
  {
   "property": "C52",
   "status": "proved",
   "theorems": [
    "C52_get_si",
    "C52_get_long",
    "C52_get_long_long",
    "C52_set",
    "C52_set_get",
    "C52_assign_swap",
    "C52_unknown_precision",
    "C52_get_long_long_refuted",
    "C52_init_set_long_refuted"
   ],
   "note": "All configurations. What GMP returns for a value out of range of long in a release build is not modelled. Exceptions: C52_get_long_long_refuted, C52_init_set_long_refuted."
  },
  {
   "property": "C53",
   "status": "proved",
   "theorems": [
    "C53_statements_layout",
    "C53_layout",
    "C53_extensions",
    "C53_tags",
    "C53_registry",
    "C53_prints",
    "C53_total_roundtrip",
    "C53_names"
   ],
   "note": "Coefficients are C ints and the number of columns is bounded by the line buffers (relation_fits); the text lines of the extensions are assumed short (extension_fits), everything else about the text is proved. C53_statements_layout and C53_layout: the exact layout of the file with the comments and statement numbers (LayoutSpec.v)."
  },
  {
   "property": "C54",
   "status": "proved",
   "theorems": [
    "C54_row_edits",
    "C54_column_edits",
    "C54_relation_edits",
    "C54_self_insert",
    "C54_vector_edits",
    "C54_allocations",
    "C54_copies",
    "C54_concat",
    "C54_extend_output",
    "C54_vectors",
    "C54_vector_tags",
    "C54_equal",
    "C54_set_precision",
    "C54_set_same_precision",
    "C54_free",
    "C54_vector_free",
    "C54_remove_row",
    "C54_insert_blank_row",
    "C54_columns",
    "C54_insert_vector",
    "C54_insert_constraints",
    "C54_doubled",
    "C54_clone",
    "C54_int_malloc",
    "C54_int_free",
    "C54_values_exist",
    "C54_extend_output_refuted"
   ],
   "note": "Blocks and values agree function by function (agrees), then the main edits restated on values (with_rows, insert_at, remove_at). Nothing is said where the value-level function has no defined result (machine overflow). A GMP operation is one step. Exception: C54_extend_output_refuted."
  },
  {
   "property": "C55",
   "status": "proved",
   "theorems": [
    "C55_level_relations",
    "C55_level_strings",
    "C55_level_names",
    "C55_level_scop",
    "C55_level_statement",
    "C55_level_generic",
    "C55_level_extensions",
    "C55_relation_text",
    "C55_vector_text",
    "C55_scop_dumped",
    "C55_statement_dumped",
    "C55_fuel",
    "C55_scop_shown",
    "C55_statement_shown",
    "C55_generic_shown",
    "C55_relation_shown",
    "C55_vector_shown",
    "C55_null_refuted",
    "C55_int_refuted",
    "C55_texts_refuted",
    "C55_annotation_refuted",
    "C55_strings_refuted",
    "C55_cycle_refuted",
    "C55_annotation_text",
    "C55_region_text",
    "C55_irregular_text"
   ],
   "note": "The dump is modelled as the text written. The statements a dependence points to are given by a function of the dependence; fuel bounds the nesting dependence -> statement -> dependence (C55_fuel: the bound does not matter). Values seen completely: library interfaces, words in lists of strings, one-line texts (40 characters for textual), no region or annotation; exact texts for relations, vectors, annotations, regions and irregular extensions; the exceptions are C55_..._refuted."
  },
  {
   "property": "C56",
   "status": "proved",
   "theorems": [
    "C56_list_roundtrip",
    "C56_empty_list_refuted",
    "C56_body_roundtrip",
    "C56_body_text",
    "C56_strings_roundtrip",
    "C56_dependence_roundtrip",
    "C56_relation_malloc",
    "C56_interface_malloc",
    "C56_vector_malloc"
   ],
   "note": "Printing succeeds and reads back, for lists with NULL elements too. The dependences' text is assumed to be printed (C53 proves that it is for scops). Exception: C56_empty_list_refuted."
  },
  {
   "property": "C57",
   "status": "proved",
   "theorems": [
    "C57_nearest",
    "C57_truncated",
    "C57_overflow",
    "C57_exact",
    "C57_small",
    "C57_monotone",
    "C57_precision_refuted"
   ],
   "note": "Doubles are modelled as the integers with 53 significant bits below 2^1024, and infinities. Default rounding mode. Exception: C57_precision_refuted."
  },
  {
   "property": "C58",
   "status": "proved",
   "theorems": [
    "C58_strings",
    "C58_files",
    "C58_relation",
    "C58_relation_string",
    "C58_extensions",
    "C58_statement",
    "C58_scop",
    "C58_scop_read",
    "C58_clone",
    "C58_duplicates_refuted",
    "C58_precision_refuted",
    "C58_incoherent_refuted",
    "C58_data",
    "C58_irregular"
   ],
   "note": "No hypothesis on the text. Undefined behaviour is an allowed outcome here (C38, C58 findings). Exceptions: C58_duplicates_refuted, C58_precision_refuted, C58_incoherent_refuted."
  },
  {
   "property": "C59",
   "status": "proved",
   "theorems": [
    "C59_malloc",
    "C59_free",
    "C59_free_null",
    "C59_add_control",
    "C59_add_exit",
    "C59_add_predicates",
    "C59_agrees",
    "C59_history",
    "C59_clone",
    "C59_clone_refuted",
    "C59_exists"
   ],
   "note": "C59_clone_refuted: undefined behaviour for every structure with a predicate and every allocator. malloc is assumed not to fail, and malloc(0) to return a block."
  },
  {
   "property": "C60",
   "status": "proved",
   "theorems": [
    "C60_strings",
    "C60_data",
    "C60_relation",
    "C60_registry",
    "C60_registry_free",
    "C60_generic",
    "C60_symbols",
    "C60_statement",
    "C60_scops",
    "C60_scop",
    "C60_scop_read",
    "C60_statement_read",
    "C60_read_free",
    "C60_printed",
    "C60_lost",
    "C60_leak_refuted",
    "C60_empty_tag_refuted"
   ],
   "note": "C60_leak_refuted: a closing tag among the extensions leaves one block. C60_empty_tag_refuted: undefined behaviour on <>. The file position, the line buffers on the stack and the integrity check at the end of osl_scop_pread (it only reads) are those of the value-level model."
  },
  {
   "property": "C61",
   "status": "proved",
   "theorems": [
    "C61_data",
    "C61_null",
    "C61_extensions",
    "C61_symbols",
    "C61_statement",
    "C61_scop",
    "C61_decides",
    "C61_decides_extensions",
    "C61_plain",
    "C61_relations",
    "C61_refuted",
    "C61_no_interface",
    "C61_no_statement_refuted"
   ],
   "note": "Arguments are different objects (pointer equality shortcuts answer yes at once). C61_refuted: scops that differ in a comment, in the second symbol, in the registry are found equal. C61_no_statement_refuted: statements against none dereference NULL. C61_no_interface: an extension without interface is never found equal."
  },
  {
   "property": "C62",
   "status": "proved",
   "theorems": [
    "C62_spprint",
    "C62_spprint_polylib",
    "C62_pprint",
    "C62_strings",
    "C62_subexpression",
    "C62_leak_refuted",
    "C62_prints"
   ],
   "note": "agrees: whatever the value-level function of C20/C21/C53 answers, the memory-level one answers, with exactly the memory of the start. C62_prints: with C20, printable relations are printed. C62_leak_refuted: an access with nb_output_dims 0 loses one block. Simplified: functions that only read the relation read it as a whole; capacities are those of C37 and C53."
  },
  {
   "property": "C63",
   "status": "proved",
   "theorems": [
    "C63_generic_sprint",
    "C63_generic_print",
    "C63_data_sprint",
    "C63_symbols_sprint",
    "C63_prints"
   ],
   "note": "agrees: whatever the value-level function of C33/C35/C53 answers, the memory-level one answers, with exactly the memory of the start. Simplified: the print function of one extension (symbols apart) reads its data as a whole and makes its text at once; the matrices of relations inside extensions are one block."
  },
  {
   "property": "C64",
   "status": "proved",
   "theorems": [
    "C64_scop_print",
    "C64_statement_pprint",
    "C64_statement_print",
    "C64_list_pprint_elts",
    "C64_arrays_to_strings",
    "C64_scop_integrity_check",
    "C64_statement_integrity_check",
    "C64_statement_attributes",
    "C64_numbers",
    "C64_saves",
    "C64_save_read",
    "C64_values_exist"
   ],
   "note": "agrees: whatever the value-level function answers, the memory-level one answers, with exactly the memory of the start. C64_saves/C64_save_read combine it with C53 and C60. The relations of the scop have every coefficient in memory (MatSpec); those inside extensions are one block (C63)."
  },
  {
   "property": "C65",
   "status": "proved",
   "theorems": [
    "C65_relation",
    "C65_relation_read_free",
    "C65_statement",
    "C65_scops",
    "C65_scop",
    "C65_scop_read",
    "C65_read_free",
    "C65_read_print_free",
    "C65_printed",
    "C65_save_read",
    "C65_scop_clone",
    "C65_statement_nclone",
    "C65_statement_clone",
    "C65_list_clone",
    "C65_list_node",
    "C65_list_filter",
    "C65_scop_free",
    "C65_statement_free",
    "C65_list_free",
    "C65_clone_free",
    "C65_scop_add",
    "C65_statement_add"
   ],
   "note": "C60 and C51 redone with the relations of MatModel (every number in memory); C65_read_print_free and C65_save_read put reading, saving (C64) and releasing together. The relations inside extensions are one block (C60)."
  },
  {
   "property": "C66",
   "status": "proved",
   "theorems": [
    "C66_relation_add",
    "C66_relation_union_runs",
    "C66_relation_union",
    "C66_remove_part",
    "C66_remove_part_absent",
    "C66_remove_part_head_refuted",
    "C66_list_add",
    "C66_list_concat",
    "C66_list_push",
    "C66_list_pop",
    "C66_list_dup",
    "C66_list_drop",
    "C66_list_destroy",
    "C66_list_set_type",
    "C66_list_set_type_refuted",
    "C66_histories",
    "C66_pieces",
    "C66_statement_remove_unions",
    "C66_normalize_scattering_runs",
    "C66_normalize_scattering",
    "C66_values_exist"
   ],
   "note": "C22, C30 and C40 redone with every number in memory, and C16's normalization as a program. The leak of osl_relation_remove_part on the first part and the part types that osl_relation_list_set_type leaves are proved as _refuted. osl_scop_remove_unions: C67."
  },
  {
   "property": "C67",
   "status": "proved",
   "theorems": [
    "C67_remove_unions_exact",
    "C67_remove_unions_last",
    "C67_remove_unions_refuted"
   ],
   "note": "C30 redone with every number in memory: C67_remove_unions_exact says what is computed and what is lost on every input, C67_remove_unions_last is the promise where it holds, C67_remove_unions_refuted shows that it fails otherwise."
  }
 ]
}