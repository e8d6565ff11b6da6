{
 "claims": [
  {
   "property": "C01",
   "status": "proved",
   "theorems": [
    "C01_action"
   ],
   "note": ""
  },
  {
   "property": "C02",
   "status": "proved",
   "theorems": [
    "C02_attr_diffs",
    "C02_apply_closes_gap",
    "C02_one_side"
   ],
   "note": ""
  },
  {
   "property": "C03",
   "status": "proved",
   "theorems": [
    "C03_has_diffs_agree"
   ],
   "note": ""
  },
  {
   "property": "C04",
   "status": "proved",
   "theorems": [
    "C04_len_summary",
    "C04_tree_all_complete"
   ],
   "note": ""
  },
  {
   "property": "C05",
   "status": "proved",
   "theorems": [
    "C05_skip_count",
    "C05_processed"
   ],
   "note": ""
  },
  {
   "property": "C06",
   "status": "proved",
   "theorems": [
    "C06_new",
    "C06_add",
    "C06_add_child",
    "C06_adds_unique",
    "C06_computed_unique"
   ],
   "note": ""
  },
  {
   "property": "C07",
   "status": "proved",
   "theorems": [
    "C07_self",
    "C07_same_adapter",
    "C07_nan_refuted"
   ],
   "note": "values must equal themselves; refuted for NaN"
  },
  {
   "property": "C08",
   "status": "proved",
   "theorems": [
    "C08_read_only"
   ],
   "note": ""
  },
  {
   "property": "C09",
   "status": "proved",
   "theorems": [
    "C09_exact",
    "C09_sound",
    "C09_complete"
   ],
   "note": ""
  },
  {
   "property": "C10",
   "status": "proved",
   "theorems": [
    "C10_no_unmatched",
    "C10_otherwise_same"
   ],
   "note": ""
  },
  {
   "property": "C11",
   "status": "proved",
   "theorems": [
    "C11_suppressed_absent",
    "C09_sound",
    "C09_complete"
   ],
   "note": ""
  },
  {
   "property": "C12",
   "status": "proved",
   "theorems": [
    "C12_mirror",
    "C12_diff_to"
   ],
   "note": ""
  },
  {
   "property": "C13",
   "status": "proved",
   "theorems": [
    "C13_pairs_correspond",
    "C13_mismatch_raises"
   ],
   "note": ""
  },
  {
   "property": "C14",
   "status": "proved",
   "theorems": [
    "C14_depth",
    "C14_exceeded",
    "C14_too_deep",
    "C14_stable",
    "C14_cycle"
   ],
   "note": ""
  },
  {
   "property": "C15",
   "status": "proved",
   "theorems": [
    "C15_progress",
    "C15_bound"
   ],
   "note": "the bound for LocalStore"
  },
  {
   "property": "C16",
   "status": "proved",
   "theorems": [
    "C16_order",
    "C11_suppressed_absent"
   ],
   "note": ""
  },
  {
   "property": "C17",
   "status": "proved",
   "theorems": [
    "C17_irrelevant_fields"
   ],
   "note": ""
  },
  {
   "property": "C18",
   "status": "proved",
   "theorems": [
    "C18_uid_injective",
    "C18_uid_single",
    "C18_uid_injective_refuted",
    "C18_trailing_underscore_refuted"
   ],
   "note": "true with the stated restriction on identifiers; refuted without it"
  },
  {
   "property": "C19",
   "status": "proved",
   "theorems": [
    "C19_model_class",
    "C19_adapter_class"
   ],
   "note": ""
  },
  {
   "property": "C20",
   "status": "proved",
   "theorems": [
    "C20_add_child",
    "C20_remove_child",
    "C20_no_duplicates"
   ],
   "note": ""
  },
  {
   "property": "C21",
   "status": "proved",
   "theorems": [
    "C21_store_is_a_map",
    "C21_register"
   ],
   "note": ""
  },
  {
   "property": "C22",
   "status": "proved",
   "theorems": [
    "C22_add_stored",
    "C22_add_new"
   ],
   "note": ""
  },
  {
   "property": "C23",
   "status": "proved",
   "theorems": [
    "C23_remove_children"
   ],
   "note": ""
  },
  {
   "property": "C24",
   "status": "proved",
   "theorems": [
    "C24_counts_agree",
    "C24_empty_name_refuted"
   ],
   "note": "count(model) with the empty name excluded, and refuted for it"
  },
  {
   "property": "C25",
   "status": "proved",
   "theorems": [
    "C25_get_by_uids",
    "C25_get_by_uids_redis"
   ],
   "note": "both back ends"
  },
  {
   "property": "C26",
   "status": "proved",
   "theorems": [
    "C26_get_or_present",
    "C26_get_or_absent",
    "C26_update_or_present",
    "C26_update_or_absent"
   ],
   "note": ""
  },
  {
   "property": "C27",
   "status": "proved",
   "theorems": [
    "C27_adapter_cleared",
    "C27_last_object_refuted"
   ],
   "note": "the property is false for the last object; the theorem says exactly when it holds"
  },
  {
   "property": "C28",
   "status": "proved",
   "theorems": [
    "C28_redis_is_a_map",
    "C28_register",
    "C28_same",
    "C28_isolated",
    "C28_model_names",
    "C28_colon_in_type_refuted",
    "C28_colon_in_id_refuted",
    "C28_glob_in_id_refuted"
   ],
   "note": "for names free of ':' and glob characters, uids unrestricted; refuted otherwise"
  },
  {
   "property": "C29",
   "status": "proved",
   "theorems": [
    "C29_count_agrees",
    "C29_patterns",
    "C29_upper_case_refuted"
   ],
   "note": "true for lower-case names, false with upper-case letters"
  },
  {
   "property": "C30",
   "status": "proved",
   "theorems": [
    "C30_local_durable",
    "C30_redis_never_written",
    "C30_update_refuted",
    "C30_sync_refuted"
   ],
   "note": "false for RedisStore, true for LocalStore; after a synchronisation see C32"
  },
  {
   "property": "C31",
   "status": "proved",
   "theorems": [
    "C31_program",
    "C31_serial",
    "C31_overlap_refuted"
   ],
   "note": "false for overlapping calls, true for serial ones"
  },
  {
   "property": "C34",
   "status": "proved",
   "theorems": [
    "C34_source_intact",
    "C34_others_intact"
   ],
   "note": ""
  },
  {
   "property": "C35",
   "status": "proved",
   "theorems": [
    "C35_untouched"
   ],
   "note": "LocalStore destination"
  },
  {
   "property": "C36",
   "status": "proved",
   "theorems": [
    "C36_calls",
    "C36_one_each",
    "C36_computed"
   ],
   "note": "LocalStore destination, diffs in which no key is both created and deleted and unchanged objects stay"
  },
  {
   "property": "C32",
   "status": "proved",
   "theorems": [
    "C32_converges",
    "C32_given",
    "C32_comparable",
    "C32_nan_refuted",
    "C32_hooks_refuted"
   ],
   "note": "LocalStore destination, any source store; hooks succeed and may write fields that are no attributes; the conditions are spelled out by alike and comparable; false without them (NaN here, moved children C48, orphans C41, Redis destinations C30)"
  },
  {
   "property": "C33",
   "status": "proved",
   "theorems": [
    "C33_second"
   ],
   "note": "as C32; statuses of objects may change"
  },
  {
   "property": "C37",
   "status": "proved",
   "theorems": [
    "C37_order",
    "C37_cascade"
   ],
   "note": "LocalStore destination; the second under the conditions of C32"
  },
  {
   "property": "C38",
   "status": "proved",
   "theorems": [
    "C38_contained",
    "C38_skips_below"
   ],
   "note": "the second for a LocalStore destination"
  },
  {
   "property": "C39",
   "status": "proved",
   "theorems": [
    "C39_first_failure",
    "C39_not_complete"
   ],
   "note": "any stores"
  },
  {
   "property": "C40",
   "status": "proved",
   "theorems": [
    "C40_consistent",
    "C40_rename_refuted"
   ],
   "note": "LocalStore destination; diffs that set no identifier, refuted for one that does"
  },
  {
   "property": "C41",
   "status": "proved",
   "theorems": [
    "C41_retry_refuted"
   ],
   "note": "the property is false"
  },
  {
   "property": "C42",
   "status": "proved",
   "theorems": [
    "C42_complete",
    "C42_nothing_to_do"
   ],
   "note": "any stores; supplied diffs must delete whole subtrees"
  },
  {
   "property": "C43",
   "status": "proved",
   "theorems": [
    "C43_given",
    "C43_returned",
    "C43_unknown",
    "C43_empty_refuted"
   ],
   "note": "refuted for a diff without elements"
  },
  {
   "property": "C44",
   "status": "proved",
   "theorems": [
    "C44_skip_src",
    "C44_skip_dst",
    "C44_given_refuted"
   ],
   "note": "for computed diffs; refuted for supplied ones"
  },
  {
   "property": "C45",
   "status": "proved",
   "theorems": [
    "C45_ignored",
    "C45_cascade_refuted"
   ],
   "note": "LocalStore destination, and not below a deleted SKIP_CHILDREN_ON_DELETE object; refuted below one"
  },
  {
   "property": "C46",
   "status": "proved",
   "theorems": [
    "C46_counts",
    "C46_reaches_total",
    "C46_skip_refuted"
   ],
   "note": "refuted for SKIP_CHILDREN_ON_DELETE deletions"
  },
  {
   "property": "C47",
   "status": "proved",
   "theorems": [
    "C47_records",
    "C47_natural_refuted"
   ],
   "note": "LocalStore destination; refuted under NATURAL_DELETION_ORDER"
  },
  {
   "property": "C48",
   "status": "proved",
   "theorems": [
    "C48_move_refuted"
   ],
   "note": "the property is false"
  },
  {
   "property": "C49",
   "status": "proved",
   "theorems": [
    "C49_field_refuted",
    "C49_type_refuted"
   ],
   "note": "the property is false"
  },
  {
   "property": "C50",
   "status": "proved",
   "theorems": [
    "C50_sync_to",
    "C50_diff_to"
   ],
   "note": "true by definition, as in the source"
  },
  {
   "property": "C51",
   "status": "proved",
   "theorems": [
    "C51_round_trip",
    "C51_dict",
    "C51_default_identifier_refuted",
    "C51_repeated_top_level_refuted"
   ],
   "note": "LocalStore; identifiers that equal their default are rendered like it and top_level has no repeats, both conditions shown necessary"
  },
  {
   "property": "C52",
   "status": "proved",
   "theorems": [
    "C52_traversal_complete",
    "C52_rendering"
   ],
   "note": ""
  },
  {
   "property": "C53",
   "status": "proved",
   "theorems": [
    "C53_get_path",
    "C53_set_key"
   ],
   "note": ""
  },
  {
   "property": "C54",
   "status": "proved",
   "theorems": [
    "C54_back_end",
    "C54_local",
    "C54_redis",
    "C54_colon_refuted"
   ],
   "note": "type names and store ids without ':' and glob characters; refuted with ':'"
  },
  {
   "property": "C55",
   "status": "proved",
   "theorems": [
    "C55_order"
   ],
   "note": "objects stored under their own unique ids, once each; same restriction on names as C54"
  },
  {
   "property": "C56",
   "status": "proved",
   "theorems": [
    "C56_transitive",
    "C56_ignore_refuted",
    "C56_top_refuted"
   ],
   "note": "under the stated conditions, two of which are shown necessary"
  },
  {
   "property": "C57",
   "status": "proved",
   "theorems": [
    "C57_create",
    "C57_update",
    "C57_delete",
    "C57_status"
   ],
   "note": "fields are unvalidated values, as in DESIGN.md"
  },
  {
   "property": "C58",
   "status": "proved",
   "theorems": [
    "C58_copy",
    "C58_given",
    "C58_count",
    "C58_orphan_refuted",
    "C58_types_refuted"
   ],
   "note": "conditions of C32 and those of entire (CopySpec.v), two of which are shown necessary"
  },
  {
   "property": "C59",
   "status": "proved",
   "theorems": [
    "C59_values",
    "C59_elements",
    "C59_sign_refuted"
   ],
   "note": "ordering hooks that yield each child once; refuted for a child type named '+'"
  },
  {
   "property": "C60",
   "status": "proved",
   "theorems": [
    "C60_report",
    "C60_one",
    "C60_nothing"
   ],
   "note": ""
  },
  {
   "property": "C61",
   "status": "proved",
   "theorems": [
    "C61_siblings",
    "C61_operators",
    "C61_transitive",
    "C61_sorting",
    "C61_order_refuted",
    "C61_equal_refuted"
   ],
   "note": "siblings; refuted for elements of different diffs"
  },
  {
   "property": "C62",
   "status": "proved",
   "theorems": [
    "C62_diff",
    "C62_sync"
   ],
   "note": "hooks that take no notice of callbacks and debug records; callbacks only observe"
  },
  {
   "property": "C63",
   "status": "proved",
   "theorems": [
    "C63_each",
    "C63_which",
    "C63_rest"
   ],
   "note": "conditions of C32, for computed diffs; the values of fields that hooks write are theirs"
  },
  {
   "property": "C64",
   "status": "proved",
   "theorems": [
    "C64_order"
   ],
   "note": "conditions of C32; elements of a computed diff; fields that hooks write are left out"
  },
  {
   "property": "C65",
   "status": "proved",
   "theorems": [
    "C65_model",
    "C65_adapter",
    "C65_complete",
    "C65_sound",
    "C65_reads",
    "C65_other_refuted",
    "C65_cycle_refuted"
   ],
   "note": ""
  },
  {
   "property": "C66",
   "status": "proved",
   "theorems": [
    "C66_parts",
    "C66_disjoint",
    "C66_names",
    "C66_recreate",
    "C66_required_refuted"
   ],
   "note": "fields are unvalidated values, as in DESIGN.md"
  },
  {
   "property": "C67",
   "status": "proved",
   "theorems": [
    "C67_names",
    "C67_str",
    "C67_objects",
    "C67_tells",
    "C67_same_refuted"
   ],
   "note": ""
  },
  {
   "property": "C68",
   "status": "proved",
   "theorems": [
    "C68_alone",
    "C68_isolated",
    "C68_ends"
   ],
   "note": "store ids without ':' and glob characters; SCAN is one step, as in DESIGN.md"
  },
  {
   "property": "C69",
   "status": "proved",
   "theorems": [
    "C69_adds",
    "C69_remove_refuted",
    "C69_get_all_refuted",
    "C69_instantiate_refuted"
   ],
   "note": "additions only; refuted for other calls"
  },
  {
   "property": "C70",
   "status": "proved",
   "theorems": [
    "C70_left",
    "C70_compare_refuted",
    "C70_repeat_refuted"
   ],
   "note": "no SKIP_CHILDREN_ON_DELETE, fields that hooks write are left out, names without ':' and glob characters; the second part is refuted"
  },
  {
   "property": "C71",
   "status": "proved",
   "theorems": [
    "C71_once",
    "C71_remove",
    "C71_history",
    "C71_retry",
    "C71_remove_refuted",
    "C71_nan_refuted"
   ],
   "note": "the last sentence is refuted"
  },
  {
   "property": "C72",
   "status": "proved",
   "theorems": [
    "C72_each",
    "C72_error",
    "C72_rest"
   ],
   "note": "conditions of C32, for computed diffs; hooks that return an object have called the method they override; the values of fields that hooks write are theirs"
  },
  {
   "property": "C73",
   "status": "proved",
   "theorems": [
    "C73_again",
    "C73_retry",
    "C73_flags_refuted"
   ],
   "note": "conditions of C32, diffs computed before they are applied; the condition on flags is shown necessary; refuted for deletions in C41_retry_refuted"
  },
  {
   "property": "C74",
   "status": "proved",
   "theorems": [
    "C74_repr",
    "C74_tells",
    "C74_summary",
    "C74_str",
    "C74_diff_refuted"
   ],
   "note": "the last sentence is refuted; characters outside ASCII are not escaped in the model"
  },
  {
   "property": "C75",
   "status": "proved",
   "theorems": [
    "C75_load",
    "C75_ready",
    "C75_sync",
    "C75_clash_refuted"
   ],
   "note": "LocalStores, no flags; the last sentence is refuted"
  },
  {
   "property": "C76",
   "status": "proved",
   "theorems": [
    "C76_iff",
    "C76_equal",
    "C76_skip_refuted"
   ],
   "note": "conditions of C32 and C58; the last sentence is refuted"
  },
  {
   "property": "C77",
   "status": "proved",
   "theorems": [
    "C77_run",
    "C77_agree",
    "C77_skip_refuted"
   ],
   "note": "LocalStores, no flags on classes; the last sentence is refuted"
  },
  {
   "property": "C78",
   "status": "proved",
   "theorems": [
    "C78_merge",
    "C78_keys",
    "C78_moved_refuted"
   ],
   "note": "conditions of C32 and C58; the last sentence is refuted"
  },
  {
   "property": "C79",
   "status": "proved",
   "theorems": [
    "C79_run",
    "C79_hub",
    "C79_order_refuted"
   ],
   "note": "LocalStores, the same classes without flags; the last sentence is refuted"
  },
  {
   "property": "C80",
   "status": "proved",
   "theorems": [
    "C80_flags",
    "C80_ignored",
    "C80_ignore_refuted"
   ],
   "note": "conditions of C32 and C58 except those on flags; the last sentence is refuted"
  },
  {
   "property": "C81",
   "status": "proved",
   "theorems": [
    "C81_iff",
    "C81_refused",
    "C81_cases",
    "C81_trace_refuted",
    "C81_self_refuted"
   ],
   "note": "LocalStores; records that are not their own parent; the last sentence is refuted"
  },
  {
   "property": "C82",
   "status": "proved",
   "theorems": [
    "C82_diff",
    "C82_nothing",
    "C82_cut",
    "C82_computed",
    "C82_readers",
    "C82_repeat_refuted",
    "C82_writers_refuted"
   ],
   "note": "diffs that do not move an object, i.e. create and delete the same key; the last sentence is refuted"
  },
  {
   "property": "C83",
   "status": "proved",
   "theorems": [
    "C83_calls",
    "C83_processes",
    "C83_names",
    "C83_all",
    "C83_count",
    "C83_diff",
    "C83_sync",
    "C83_listing_refuted",
    "C83_skip_refuted"
   ],
   "note": "for diffs, types without ':' and glob characters and entries under their own keys; the last sentence is refuted"
  },
  {
   "property": "C84",
   "status": "proved",
   "theorems": [
    "C84_levels",
    "C84_before",
    "C84_first",
    "C84_config",
    "C84_silence",
    "C84_success",
    "C84_formatter",
    "C84_more_refuted",
    "C84_last_refuted",
    "C84_raise_refuted"
   ],
   "note": "diffs that are well-posed for the destination; the last sentence is refuted"
  },
  {
   "property": "C85",
   "status": "proved",
   "theorems": [
    "C85_ends",
    "C85_store",
    "C85_fresh",
    "C85_together_refuted"
   ],
   "note": "the last sentence is refuted"
  },
  {
   "property": "C86",
   "status": "proved",
   "theorems": [
    "C86_load",
    "C86_keep",
    "C86_ready",
    "C86_sync",
    "C86_again",
    "C86_orphans_refuted"
   ],
   "note": "the last sentence is refuted"
  },
  {
   "property": "C87",
   "status": "proved",
   "theorems": [
    "C87_local",
    "C87_redis",
    "C87_both",
    "C87_dangling",
    "C87_data_refuted"
   ],
   "note": "the last sentence is refuted"
  },
  {
   "property": "C88",
   "status": "proved",
   "theorems": [
    "C88_load",
    "C88_firsts",
    "C88_latest",
    "C88_again",
    "C88_sync",
    "C88_parent_refuted",
    "C88_order_refuted"
   ],
   "note": "the last sentence is refuted"
  },
  {
   "property": "C89",
   "status": "proved",
   "theorems": [
    "C89_in_step",
    "C89_attempts",
    "C89_copy",
    "C89_hasty_refuted",
    "C89_skip_refuted"
   ],
   "note": "the last sentence is refuted"
  },
  {
   "property": "C90",
   "status": "proved",
   "theorems": [
    "C90_read",
    "C90_tells",
    "C90_line",
    "C90_model",
    "C90_same",
    "C90_nan_refuted"
   ],
   "note": "the last sentence is refuted"
  },
  {
   "property": "C91",
   "status": "proved",
   "theorems": [
    "C91_plain",
    "C91_calls",
    "C91_progress",
    "C91_exceptions",
    "C91_complete",
    "C91_others",
    "C91_given_refuted"
   ],
   "note": "the last sentence is refuted"
  },
  {
   "property": "C92",
   "status": "proved",
   "theorems": [
    "C92_plain",
    "C92_only",
    "C92_exceptions",
    "C92_progress",
    "C92_elements",
    "C92_whole",
    "C92_sync",
    "C92_moment_refuted"
   ],
   "note": "the last sentence is refuted"
  },
  {
   "property": "C93",
   "status": "proved",
   "theorems": [
    "C93_only_written",
    "C93_second",
    "C93_rounds",
    "C93_agree",
    "C93_update_refuted"
   ],
   "note": "the last sentence is refuted"
  },
  {
   "property": "C94",
   "status": "proved",
   "theorems": [
    "C94_run",
    "C94_agree",
    "C94_arrives",
    "C94_vanishes",
    "C94_orphan_refuted",
    "C94_rename_refuted"
   ],
   "note": "the last sentence is refuted"
  },
  {
   "property": "C95",
   "status": "proved",
   "theorems": [
    "C95_run",
    "C95_heals",
    "C95_others",
    "C95_delete_refuted"
   ],
   "note": "the last sentence is refuted"
  },
  {
   "property": "C96",
   "status": "proved",
   "theorems": [
    "C96_run",
    "C96_agree",
    "C96_arrives",
    "C96_forgotten_refuted"
   ],
   "note": "the last sentence is refuted"
  },
  {
   "property": "C97",
   "status": "proved",
   "theorems": [
    "C97_run",
    "C97_alike",
    "C97_settled",
    "C97_disagree_refuted"
   ],
   "note": "the last sentence is refuted"
  },
  {
   "property": "C98",
   "status": "proved",
   "theorems": [
    "C98_edges",
    "C98_exact",
    "C98_once",
    "C98_top",
    "C98_text",
    "C98_names_refuted",
    "C98_shared_refuted",
    "C98_newline_refuted"
   ],
   "note": "without the conditions on names and parents the tree is refuted to be exact"
  },
  {
   "property": "C99",
   "status": "proved",
   "theorems": [
    "C99_at_most",
    "C99_exactly",
    "C99_len",
    "C99_skip_refuted",
    "C99_ignore_refuted"
   ],
   "note": "exactness is refuted for objects marked SKIP_CHILDREN_ON_DELETE"
  },
  {
   "property": "C100",
   "status": "proved",
   "theorems": [
    "C100_own",
    "C100_built",
    "C100_shared",
    "C100_apart",
    "C100_last",
    "C100_attach",
    "C100_meta",
    "C100_args",
    "C100_attach_refuted",
    "C100_get_refuted"
   ],
   "note": "LocalStores only; get_or_instantiate and the like are calls of these methods"
  },
  {
   "property": "C101",
   "status": "proved",
   "theorems": [
    "C101_parts",
    "C101_empty_refuted"
   ],
   "note": "refuted for empty parts"
  },
  {
   "property": "C102",
   "status": "proved",
   "theorems": [
    "C102_strangers",
    "C102_intact",
    "C102_new",
    "C102_given_refuted"
   ],
   "note": "refuted for a program that adds an object of one adapter to another"
  },
  {
   "property": "C103",
   "status": "proved",
   "theorems": [
    "C103_stops",
    "C103_once",
    "C103_diff",
    "C103_sync",
    "C103_retry",
    "C103_foreign_refuted",
    "C103_remove_refuted"
   ],
   "note": "refuted for exceptions that diffsync catches and for repeating a removal with children"
  },
  {
   "property": "C104",
   "status": "proved",
   "theorems": [
    "C104_equal",
    "C104_self",
    "C104_one_store",
    "C104_nan_refuted"
   ],
   "note": "refuted for NaN"
  },
  {
   "property": "C105",
   "status": "proved",
   "theorems": [
    "C105_calls",
    "C105_get_all",
    "C105_remove",
    "C105_sync",
    "C105_system",
    "C105_processes",
    "C105_cascade_refuted",
    "C105_fewer_refuted"
   ],
   "note": "the bound for synchronisations is refuted for objects with SKIP_CHILDREN_ON_DELETE; the bounds are reached"
  },
  {
   "property": "C106",
   "status": "proved",
   "theorems": [
    "C106_diff",
    "C106_sync",
    "C106_objects_refuted"
   ],
   "note": "refuted in terms of the objects on the server"
  },
  {
   "property": "C107",
   "status": "proved",
   "theorems": [
    "C107_given",
    "C107_whole",
    "C107_computed",
    "C107_mixed_refuted",
    "C107_exponential",
    "C107_linear_refuted"
   ],
   "note": "refuted for diffs with something else below a deletion"
  }
 ]
}