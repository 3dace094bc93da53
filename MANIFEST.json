{
 "claims": [
  {
   "property": "C01",
   "status": "proved",
   "theorems": [
    "C01_unsigned_roundtrip",
    "C01_unsigned_rejects",
    "C01_uint_types"
   ],
   "note": "exact bits, rejection with no output, uint8..uint64"
  },
  {
   "property": "C02",
   "status": "proved",
   "theorems": [
    "C02_signed_roundtrip",
    "C02_signed_rejects",
    "C02_int_types"
   ],
   "note": ""
  },
  {
   "property": "C03",
   "status": "proved",
   "theorems": [
    "C03_varuint16",
    "C03_varuint32",
    "C03_varuint64",
    "C03_varuint",
    "C03_rejects"
   ],
   "note": ""
  },
  {
   "property": "C04",
   "status": "proved",
   "theorems": [
    "C04_varint16",
    "C04_varint32",
    "C04_varint64",
    "C04_varint",
    "C04_rejects",
    "C04_varint64_min_refuted"
   ],
   "note": "round trip on the documented ranges; the exception at MinInt64 of varint64 is proved separately"
  },
  {
   "property": "C05",
   "status": "proved",
   "theorems": [
    "C05_varsize_roundtrip",
    "C05_varsize_writer_rejects",
    "C05_varsize_reader_bound",
    "C05_varsize_reader_rejects"
   ],
   "note": ""
  },
  {
   "property": "C06",
   "status": "proved",
   "theorems": [
    "C06_unsigned_size_exact",
    "C06_signed_size_exact",
    "C06_unsigned_shortest",
    "C06_signed_shortest"
   ],
   "note": ""
  },
  {
   "property": "C07",
   "status": "proved",
   "theorems": [
    "C07_prefix_free",
    "C07_sequence_unique",
    "C07_scalar_roundtrip"
   ],
   "note": ""
  },
  {
   "property": "C08",
   "status": "proved",
   "theorems": [
    "C08_string",
    "C08_string_too_long"
   ],
   "note": ""
  },
  {
   "property": "C09",
   "status": "proved",
   "theorems": [
    "C09_bytes_iff",
    "C09_bytes_unchecked",
    "C09_bytes_rejects"
   ],
   "note": "iff characterisation; the writer's missing check is stated as a theorem"
  },
  {
   "property": "C10",
   "status": "proved",
   "theorems": [
    "C10_extern_roundtrip",
    "C10_extern_short_buffer_panics",
    "C10_extern_trailing_bits",
    "C10_extern_long_buffer_refuted"
   ],
   "note": "round trip for well-formed values; panics and wrong trailing bits characterised"
  },
  {
   "property": "C11",
   "status": "proved",
   "theorems": [
    "C11_prefix_determined",
    "C11_never_panics",
    "C11_truncated_encodings"
   ],
   "note": ""
  },
  {
   "property": "C12",
   "status": "proved",
   "theorems": [
    "C12_writer",
    "C12_writer_ideal",
    "C12_reader",
    "C12_reader_slices",
    "C12_zero_width_refuted"
   ],
   "note": ""
  },
  {
   "property": "C13",
   "status": "proved",
   "theorems": [
    "C13_writer",
    "C13_reader",
    "C13_count",
    "C13_agree",
    "C13_zero_panics",
    "C13_large_boundary_refuted"
   ],
   "note": ""
  },
  {
   "property": "C14",
   "status": "proved",
   "theorems": [
    "C14_marshal",
    "C14_marshal_error",
    "C14_marshal_bytes",
    "C14_roundtrip",
    "C14_suffix"
   ],
   "note": ""
  },
  {
   "property": "C15",
   "status": "proved",
   "theorems": [
    "C15_roundtrip",
    "C15_wire_format",
    "C15_any_codec"
   ],
   "note": ""
  },
  {
   "property": "C16",
   "status": "proved",
   "theorems": [
    "C16_size",
    "C16_any_codec"
   ],
   "note": ""
  },
  {
   "property": "C17",
   "status": "proved",
   "theorems": [
    "C17_roundtrip",
    "C17_builtin",
    "C17_too_long"
   ],
   "note": ""
  },
  {
   "property": "C18",
   "status": "proved",
   "theorems": [
    "C18_integers",
    "C18_others"
   ],
   "note": ""
  },
  {
   "property": "C19",
   "status": "proved",
   "theorems": [
    "C19_errors",
    "C19_always_success",
    "C19_element_dropped"
   ],
   "note": ""
  },
  {
   "property": "C20",
   "status": "proved",
   "theorems": [
    "C20_roundtrip"
   ],
   "note": ""
  },
  {
   "property": "C21",
   "status": "proved",
   "theorems": [
    "C21_layout"
   ],
   "note": ""
  },
  {
   "property": "C22",
   "status": "proved",
   "theorems": [
    "C22_roundtrip",
    "C22_no_branch",
    "C22_first_condition"
   ],
   "note": ""
  },
  {
   "property": "C23",
   "status": "proved",
   "theorems": [
    "C23_layout",
    "C23_unknown_tag",
    "C23_large_tag"
   ],
   "note": ""
  },
  {
   "property": "C24",
   "status": "proved",
   "theorems": [
    "C24_exact",
    "C24_builtin_arrays",
    "C24_blobs"
   ],
   "note": ""
  },
  {
   "property": "C25",
   "status": "proved",
   "theorems": [
    "C25_element_size"
   ],
   "note": ""
  },
  {
   "property": "C26",
   "status": "proved",
   "theorems": [
    "C26_roundtrip",
    "C26_recursive"
   ],
   "note": ""
  },
  {
   "property": "C27",
   "status": "proved",
   "theorems": [
    "C27_arrays",
    "C27_fields"
   ],
   "note": ""
  },
  {
   "property": "C28",
   "status": "proved",
   "theorems": [
    "C28_implicit",
    "C28_run",
    "C28_explicit"
   ],
   "note": ""
  },
  {
   "property": "C29",
   "status": "proved",
   "theorems": [
    "C29_implicit",
    "C29_disjoint",
    "C29_explicit"
   ],
   "note": ""
  },
  {
   "property": "C30",
   "status": "proved",
   "theorems": [
    "C30_value"
   ],
   "note": ""
  },
  {
   "property": "C31",
   "status": "proved",
   "theorems": [
    "C31_lost",
    "C31_arith",
    "C31_mixed"
   ],
   "note": ""
  },
  {
   "property": "C32",
   "status": "proved",
   "theorems": [
    "C32_mixed"
   ],
   "note": ""
  },
  {
   "property": "C33",
   "status": "proved",
   "theorems": [
    "C33_terminates",
    "C33_rejected",
    "C33_accepted"
   ],
   "note": ""
  },
  {
   "property": "C34",
   "status": "proved",
   "theorems": [
    "C34_item",
    "C34_unknown_name",
    "C34_unknown_value",
    "C34_sql"
   ],
   "note": ""
  },
  {
   "property": "C35",
   "status": "proved",
   "theorems": [
    "C35_edges",
    "C35_imports"
   ],
   "note": ""
  },
  {
   "property": "C36",
   "status": "proved",
   "theorems": [
    "C36_exact",
    "C36_used",
    "C36_unused_refuted"
   ],
   "note": ""
  },
  {
   "property": "C37",
   "status": "proved",
   "theorems": [
    "C37_distinct",
    "C37_directory",
    "C37_limit",
    "C37_limit_refuted",
    "C37_error",
    "C37_collision",
    "C37_again"
   ],
   "note": ""
  },
  {
   "property": "C38",
   "status": "proved",
   "theorems": [
    "C38_own_type",
    "C38_imported_type",
    "C38_member",
    "C38_own_item",
    "C38_item",
    "C38_cycle",
    "C38_scope",
    "C38_scope_cycle"
   ],
   "note": ""
  },
  {
   "property": "C39",
   "status": "proved",
   "theorems": [
    "C39_chain",
    "C39_cycle"
   ],
   "note": ""
  },
  {
   "property": "C40",
   "status": "proved",
   "theorems": [
    "C40_instances",
    "C40_words",
    "C40_reuse",
    "C40_same_names",
    "C40_same_parts",
    "C40_refuted"
   ],
   "note": ""
  },
  {
   "property": "C41",
   "status": "proved",
   "theorems": [
    "C41_reference",
    "C41_smallest"
   ],
   "note": ""
  },
  {
   "property": "C42",
   "status": "proved",
   "theorems": [
    "C42_writer",
    "C42_reader"
   ],
   "note": ""
  },
  {
   "property": "C43",
   "status": "proved",
   "theorems": [
    "C43_total",
    "C43_array_length",
    "C43_amplification",
    "C43_endless",
    "C43_hostile_refuted"
   ],
   "note": ""
  },
  {
   "property": "C44",
   "status": "proved",
   "theorems": [
    "C44_wide",
    "C44_plain",
    "C44_narrow",
    "C44_refuted"
   ],
   "note": ""
  },
  {
   "property": "C45",
   "status": "proved",
   "theorems": [
    "C45_answer"
   ],
   "note": ""
  },
  {
   "property": "C46",
   "status": "proved",
   "theorems": [
    "C46_unsigned_element",
    "C46_signed_element",
    "C46_fields_reject"
   ],
   "note": ""
  },
  {
   "property": "C47",
   "status": "proved",
   "theorems": [
    "C47_float16",
    "C47_float16_total"
   ],
   "note": ""
  },
  {
   "property": "C48",
   "status": "proved",
   "theorems": [
    "C48_scalars",
    "C48_elements"
   ],
   "note": ""
  },
  {
   "property": "C49",
   "status": "proved",
   "theorems": [
    "C49_variable",
    "C49_constant"
   ],
   "note": ""
  },
  {
   "property": "C50",
   "status": "proved",
   "theorems": [
    "C50_runtime",
    "C50_every_value",
    "C50_constant",
    "C50_refuted"
   ],
   "note": ""
  },
  {
   "property": "C51",
   "status": "proved",
   "theorems": [
    "C51_order"
   ],
   "note": ""
  },
  {
   "property": "C52",
   "status": "proved",
   "theorems": [
    "C52_crash"
   ],
   "note": ""
  },
  {
   "property": "C53",
   "status": "proved",
   "theorems": [
    "C53_dummy"
   ],
   "note": ""
  },
  {
   "property": "C54",
   "status": "proved",
   "theorems": [
    "C54_bool_compare"
   ],
   "note": ""
  },
  {
   "property": "C55",
   "status": "proved",
   "theorems": [
    "C55_resolved",
    "C55_found",
    "C55_single_import"
   ],
   "note": ""
  },
  {
   "property": "C56",
   "status": "proved",
   "theorems": [
    "C56_last_file",
    "C56_one_each"
   ],
   "note": ""
  },
  {
   "property": "C57",
   "status": "proved",
   "theorems": [
    "C57_order",
    "C57_kinds",
    "C57_items_refuted"
   ],
   "note": ""
  },
  {
   "property": "C58",
   "status": "proved",
   "theorems": [
    "C58_array_kind",
    "C58_cycle"
   ],
   "note": ""
  },
  {
   "property": "C59",
   "status": "proved",
   "theorems": [
    "C59_import_path",
    "C59_alias",
    "C59_alias_refuted"
   ],
   "note": ""
  },
  {
   "property": "C60",
   "status": "proved",
   "theorems": [
    "C60_bitmask",
    "C60_bitmask_subtype"
   ],
   "note": ""
  },
  {
   "property": "C61",
   "status": "proved",
   "theorems": [
    "C61_ends",
    "C61_recursive"
   ],
   "note": ""
  },
  {
   "property": "C62",
   "status": "proved",
   "theorems": [
    "C62_ignored",
    "C62_nested_refuted"
   ],
   "note": ""
  },
  {
   "property": "C63",
   "status": "proved",
   "theorems": [
    "C63_last"
   ],
   "note": ""
  },
  {
   "property": "C64",
   "status": "proved",
   "theorems": [
    "C64_scalars",
    "C64_decoded",
    "C64_packed_refuted"
   ],
   "note": ""
  },
  {
   "property": "C65",
   "status": "proved",
   "theorems": [
    "C65_enum",
    "C65_mask",
    "C65_isset"
   ],
   "note": ""
  },
  {
   "property": "C66",
   "status": "proved",
   "theorems": [
    "C66_unique",
    "C66_read",
    "C66_schema",
    "C66_pairs",
    "C66_refuted",
    "C66_refuted_isset"
   ],
   "note": ""
  },
  {
   "property": "C67",
   "status": "proved",
   "theorems": [
    "C67_crash",
    "C67_condition",
    "C67_tilde"
   ],
   "note": ""
  },
  {
   "property": "C68",
   "status": "proved",
   "theorems": [
    "C68_near",
    "C68_refuted"
   ],
   "note": ""
  },
  {
   "property": "C69",
   "status": "proved",
   "theorems": [
    "C69_unique",
    "C69_value",
    "C69_refuted",
    "C69_align",
    "C69_expression"
   ],
   "note": ""
  },
  {
   "property": "C70",
   "status": "proved",
   "theorems": [
    "C70_string",
    "C70_refuted"
   ],
   "note": ""
  },
  {
   "property": "C71",
   "status": "proved",
   "theorems": [
    "C71_double",
    "C71_refuted_float"
   ],
   "note": ""
  },
  {
   "property": "C72",
   "status": "proved",
   "theorems": [
    "C72_codec",
    "C72_packable",
    "C72_refuted"
   ],
   "note": ""
  },
  {
   "property": "C73",
   "status": "proved",
   "theorems": [
    "C73_enum",
    "C73_bitmask",
    "C73_refuted",
    "C73_refuted_read"
   ],
   "note": ""
  },
  {
   "property": "C74",
   "status": "proved",
   "theorems": [
    "C74_compiles",
    "C74_refuted"
   ],
   "note": ""
  },
  {
   "property": "C75",
   "status": "proved",
   "theorems": [
    "C75_unconverted",
    "C75_shift",
    "C75_refuted"
   ],
   "note": ""
  },
  {
   "property": "C76",
   "status": "proved",
   "theorems": [
    "C76_value",
    "C76_wraps",
    "C76_refuted"
   ],
   "note": ""
  },
  {
   "property": "C77",
   "status": "proved",
   "theorems": [
    "C77_wire_format",
    "C77_written",
    "C77_distinct"
   ],
   "note": ""
  },
  {
   "property": "C78",
   "status": "proved",
   "theorems": [
    "C78_rounds",
    "C78_unique",
    "C78_special",
    "C78_read"
   ],
   "note": ""
  },
  {
   "property": "C79",
   "status": "proved",
   "theorems": [
    "C79_member",
    "C79_constant",
    "C79_refuted"
   ],
   "note": ""
  },
  {
   "property": "C80",
   "status": "proved",
   "theorems": [
    "C80_compiles"
   ],
   "note": ""
  },
  {
   "property": "C81",
   "status": "proved",
   "theorems": [
    "C81_labels",
    "C81_items",
    "C81_builtin",
    "C81_unknown",
    "C81_refuted"
   ],
   "note": ""
  },
  {
   "property": "C82",
   "status": "proved",
   "theorems": [
    "C82_switch",
    "C82_field",
    "C82_refuted"
   ],
   "note": ""
  },
  {
   "property": "C83",
   "status": "proved",
   "theorems": [
    "C83_union"
   ],
   "note": ""
  },
  {
   "property": "C84",
   "status": "proved",
   "theorems": [
    "C84_path",
    "C84_panics",
    "C84_refuted"
   ],
   "note": ""
  },
  {
   "property": "C85",
   "status": "proved",
   "theorems": [
    "C85_imports",
    "C85_import",
    "C85_reference"
   ],
   "note": ""
  },
  {
   "property": "C86",
   "status": "proved",
   "theorems": [
    "C86_words",
    "C86_same",
    "C86_dropped",
    "C86_constraint_refuted",
    "C86_offset_refuted"
   ],
   "note": ""
  },
  {
   "property": "C87",
   "status": "proved",
   "theorems": [
    "C87_last",
    "C87_none"
   ],
   "note": ""
  },
  {
   "property": "C88",
   "status": "proved",
   "theorems": [
    "C88_crash"
   ],
   "note": ""
  },
  {
   "property": "C89",
   "status": "proved",
   "theorems": [
    "C89_exact",
    "C89_sequence",
    "C89_arrays",
    "C89_builtin_arrays",
    "C89_builtin_arrays_refuted",
    "C89_unions",
    "C89_condition_refuted",
    "C89_alignment_refuted",
    "C89_query_refuted"
   ],
   "note": ""
  },
  {
   "property": "C90",
   "status": "proved",
   "theorems": [
    "C90_files",
    "C90_stdout",
    "C90_run",
    "C90_names_refuted",
    "C90_packages_refuted",
    "C90_error_refuted"
   ],
   "note": ""
  },
  {
   "property": "C91",
   "status": "proved",
   "theorems": [
    "C91_written",
    "C91_ok",
    "C91_whole",
    "C91_old_file_refuted"
   ],
   "note": ""
  },
  {
   "property": "C92",
   "status": "proved",
   "theorems": [
    "C92_set",
    "C92_kept",
    "C92_union",
    "C92_again",
    "C92_total",
    "C92_all_refuted"
   ],
   "note": ""
  },
  {
   "property": "C93",
   "status": "proved",
   "theorems": [
    "C93_resolved",
    "C93_known",
    "C93_text",
    "C93_success",
    "C93_left",
    "C93_unnamed",
    "C93_all_refuted"
   ],
   "note": ""
  },
  {
   "property": "C94",
   "status": "proved",
   "theorems": [
    "C94_declared",
    "C94_instances",
    "C94_default",
    "C94_schema_refuted"
   ],
   "note": ""
  },
  {
   "property": "C95",
   "status": "proved",
   "theorems": [
    "C95_reference",
    "C95_lost",
    "C95_other",
    "C95_accepted_refuted"
   ],
   "note": ""
  },
  {
   "property": "C96",
   "status": "proved",
   "theorems": [
    "C96_enum",
    "C96_items",
    "C96_union",
    "C96_bitmask",
    "C96_package",
    "C96_struct_members",
    "C96_choice_members",
    "C96_union_members",
    "C96_names_refuted"
   ],
   "note": ""
  },
  {
   "property": "C97",
   "status": "proved",
   "theorems": [
    "C97_labels",
    "C97_agree",
    "C97_expressions",
    "C97_errors",
    "C97_order_refuted",
    "C97_compiles_refuted"
   ],
   "note": ""
  },
  {
   "property": "C98",
   "status": "proved",
   "theorems": [
    "C98_uses",
    "C98_fields",
    "C98_shared",
    "C98_wrong",
    "C98_uniform",
    "C98_arguments_refuted"
   ],
   "note": ""
  },
  {
   "property": "C99",
   "status": "proved",
   "theorems": [
    "C99_marshal",
    "C99_unmarshal",
    "C99_sizes",
    "C99_independent",
    "C99_clone",
    "C99_clone_shares",
    "C99_assign",
    "C99_packed_size_panics",
    "C99_packed_size",
    "C99_packed_size_too_small"
   ],
   "note": ""
  },
  {
   "property": "C100",
   "status": "proved",
   "theorems": [
    "C100_longest",
    "C100_next",
    "C100_text",
    "C100_words",
    "C100_unambiguous",
    "C100_keyword",
    "C100_identifier",
    "C100_integer",
    "C100_double",
    "C100_float",
    "C100_string",
    "C100_empty_comment_refuted",
    "C100_stray"
   ],
   "note": "C100_longest, C100_next and C100_text are the meaning of the lexer in terms of the declarative texts of each rule; C100_words the reading of words with layout; C100_keyword, C100_identifier, C100_integer, C100_double, C100_float, C100_string say which texts are words (literals as in LiteralsSpec.v, the same that C69's evaluation uses); C100_empty_comment_refuted and C100_stray are the two exceptions."
  },
  {
   "property": "C101",
   "status": "proved",
   "theorems": [
    "C101_reads",
    "C101_length",
    "C101_sound",
    "C101_unique",
    "C101_parentheses",
    "C101_text"
   ],
   "note": "Both directions, unique reading, and from characters on. ANTLR's error repair is not modelled: a syntax error is None."
  },
  {
   "property": "C102",
   "status": "proved",
   "theorems": [
    "C102_reads",
    "C102_text",
    "C102_unique",
    "C102_sound",
    "C102_constraint",
    "C102_constraint_refuted",
    "C102_length_refuted"
   ],
   "note": "Both directions, unique reading, from characters on; the two ambiguities as C102_constraint_refuted and C102_length_refuted, C102_constraint bounds the first. Rule groups, SQL declarations, services and pubsubs are not in the modelled grammar (syntax errors there); ANTLR's error repair is not modelled."
  },
  {
   "property": "C103",
   "status": "proved",
   "theorems": [
    "C103_new",
    "C103_used",
    "C103_failed"
   ],
   "note": "Objects with any history of successful and failed calls. Stale fields (C103_equal_refuted), changes by failed calls (C103_failed_refuted) and the dependence on old values when an expression looks at a field that is not stored (C103_steady_refuted) are shown by examples. Compounds inside arrays and optional compounds are always new objects."
  },
  {
   "property": "C104",
   "status": "proved",
   "theorems": [
    "C104_scalars",
    "C104_bits",
    "C104_shortest",
    "C104_identical",
    "C104_identical_refuted"
   ],
   "note": "Schemas without packed arrays (C64_packed_refuted shows why: a packed array read from data can be one that is not written). C104_identical is for the schemas of ReencodeSpec.rigid; C104_identical_refuted lists four reasons why bits can differ otherwise."
  },
  {
   "property": "C105",
   "status": "proved",
   "theorems": [
    "C105_text",
    "C105_read",
    "C105_unique",
    "C105_wire",
    "C105_codec"
   ],
   "note": "One package, no templates, imports or qualified names; what expressions compute is a parameter of the theorem (C66 to C76). Choices whose selector is not a parameter, bitmasks over subtypes (C73) and parameterised types without arguments are left out."
  },
  {
   "property": "C106",
   "status": "proved",
   "theorems": [
    "C106_size",
    "C106_wire",
    "C106_length",
    "C106_condition",
    "C106_argument",
    "C106_text",
    "C106_overflow_refuted"
   ],
   "note": "The meaning of expressions that C105 leaves open, for integer and bool expressions. 'Compiles' is the typing of GoTypes.v on the printed text (C106_text: its one reading). Ranges are needed: C106_overflow_refuted. Enums are in C109. Enum items in expressions other than labels, bitmask values, functions, string and float expressions, optional members, members of members, bit<e> members and shifts are left out (None)."
  },
  {
   "property": "C107",
   "status": "proved",
   "theorems": [
    "C107_success",
    "C107_least",
    "C107_any",
    "C107_each",
    "C107_string_refuted",
    "C107_explicit_refuted",
    "C107_empty_refuted"
   ],
   "note": "Requests.v lists the sizes of all make calls beside the decoders of Schema.v; dense, limited and passes are conditions on the schema with what its expressions can see while an object is read; C107_success, C107_any, C107_each are the bounds, C107_least says that the list is not too short; the _refuted theorems are the exceptions. Of packed arrays only the slice of the array itself would be listed: they are excluded (C43_amplification is about them). Go structs that are read into are not counted."
  },
  {
   "property": "C108",
   "status": "proved",
   "theorems": [
    "C108_int",
    "C108_value",
    "C108_bool",
    "C108_types",
    "C108_constant_refuted",
    "C108_wide_refuted",
    "C108_choice_refuted"
   ],
   "note": "Partly refuted: constants out of the range of the return type, products out of the range of the operands, functions of choices. Calls of functions in other expressions are not modelled."
  },
  {
   "property": "C109",
   "status": "proved",
   "theorems": [
    "C109_label",
    "C109_argument",
    "C109_case",
    "C109_default"
   ],
   "note": "Labels and arguments of enum types in the generated code; with C106_wire, whose hypotheses now admit them, the wire format. The chosen field: C109_case, C109_default. Items whose values are expressions, choices on members of members and choices on bitmasks are left out (None)."
  },
  {
   "property": "C110",
   "status": "proved",
   "theorems": [
    "C110_condition",
    "C110_present",
    "C110_same_type"
   ],
   "note": "C106_condition covers these conditions, alone and as parts of others; C110_condition and C110_present state them alone. Items outside of comparisons, other than as labels, are left out."
  }
 ]
}