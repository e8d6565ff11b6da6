"""Write MANIFEST.json from the table below (property, status, theorems, note)."""
import json, os
ROOT = os.path.join(os.path.dirname(__file__), "..")
CLAIMS = [
    ("C01", "proved", ["C01_action"], ""),
    ("C02", "proved", ["C02_attr_diffs", "C02_apply_closes_gap", "C02_one_side"], ""),
    ("C03", "proved", ["C03_has_diffs_agree"], ""),
    ("C04", "proved", ["C04_len_summary", "C04_tree_all_complete"], ""),
    ("C05", "proved", ["C05_skip_count", "C05_processed"], ""),
    ("C06", "proved", ["C06_new", "C06_add", "C06_add_child", "C06_adds_unique", "C06_computed_unique"], ""),
    ("C07", "proved", ["C07_self", "C07_same_adapter", "C07_nan_refuted"], "values must equal themselves; refuted for NaN"),
    ("C08", "proved", ["C08_read_only"], ""),
    ("C09", "proved", ["C09_exact", "C09_sound", "C09_complete"], ""),
    ("C10", "proved", ["C10_no_unmatched", "C10_otherwise_same"], ""),
    ("C11", "proved", ["C11_suppressed_absent", "C09_sound", "C09_complete"], ""),
    ("C12", "proved", ["C12_mirror", "C12_diff_to"], ""),
    ("C13", "proved", ["C13_pairs_correspond", "C13_mismatch_raises"], ""),
    ("C14", "proved", ["C14_depth", "C14_exceeded", "C14_too_deep", "C14_stable", "C14_cycle"], ""),
    ("C15", "proved", ["C15_progress", "C15_bound"], "the bound for LocalStore"),
    ("C16", "proved", ["C16_order", "C11_suppressed_absent"], ""),
    ("C17", "proved", ["C17_irrelevant_fields"], ""),
    ("C18", "proved", ["C18_uid_injective", "C18_uid_single", "C18_uid_injective_refuted", "C18_trailing_underscore_refuted"], "true with the stated restriction on identifiers; refuted without it"),
    ("C19", "proved", ["C19_model_class", "C19_adapter_class"], ""),
    ("C20", "proved", ["C20_add_child", "C20_remove_child", "C20_no_duplicates"], ""),
    ("C21", "proved", ["C21_store_is_a_map", "C21_register"], ""),
    ("C22", "proved", ["C22_add_stored", "C22_add_new"], ""),
    ("C23", "proved", ["C23_remove_children"], ""),
    ("C24", "proved", ["C24_counts_agree", "C24_empty_name_refuted"], "count(model) with the empty name excluded, and refuted for it"),
    ("C25", "proved", ["C25_get_by_uids", "C25_get_by_uids_redis"], "both back ends"),
    ("C26", "proved", ["C26_get_or_present", "C26_get_or_absent", "C26_update_or_present", "C26_update_or_absent"], ""),
    ("C27", "proved", ["C27_adapter_cleared", "C27_last_object_refuted"], "the property is false for the last object; the theorem says exactly when it holds"),
    ("C28", "proved", ["C28_redis_is_a_map", "C28_register", "C28_same", "C28_isolated", "C28_model_names", "C28_colon_in_type_refuted", "C28_colon_in_id_refuted", "C28_glob_in_id_refuted"], "for names free of ':' and glob characters, uids unrestricted; refuted otherwise"),
    ("C29", "proved", ["C29_count_agrees", "C29_patterns", "C29_upper_case_refuted"], "true for lower-case names, false with upper-case letters"),
    ("C30", "proved", ["C30_local_durable", "C30_redis_never_written", "C30_update_refuted", "C30_sync_refuted"], "false for RedisStore, true for LocalStore; after a synchronisation see C32"),
    ("C31", "proved", ["C31_program", "C31_serial", "C31_overlap_refuted"], "false for overlapping calls, true for serial ones"),
    ("C34", "proved", ["C34_source_intact", "C34_others_intact"], ""),
    ("C35", "proved", ["C35_untouched"], "LocalStore destination"),
    ("C36", "proved", ["C36_calls", "C36_one_each", "C36_computed"], "LocalStore destination, diffs in which no key is both created and deleted and unchanged objects stay"),
    ("C32", "proved", ["C32_converges", "C32_given", "C32_comparable", "C32_nan_refuted", "C32_hooks_refuted"], "LocalStore destination, any source store; hooks succeed and may write fields that are no attributes; the conditions are spelled out by alike and comparable; false without them (NaN here, moved children C48, orphans C41, Redis destinations C30)"),
    ("C33", "proved", ["C33_second"], "as C32; statuses of objects may change"),
    ("C37", "proved", ["C37_order", "C37_cascade"], "LocalStore destination; the second under the conditions of C32"),
    ("C38", "proved", ["C38_contained", "C38_skips_below"], "the second for a LocalStore destination"),
    ("C39", "proved", ["C39_first_failure", "C39_not_complete"], "any stores"),
    ("C40", "proved", ["C40_consistent", "C40_rename_refuted"], "LocalStore destination; diffs that set no identifier, refuted for one that does"),
    ("C41", "proved", ["C41_retry_refuted"], "the property is false"),
    ("C42", "proved", ["C42_complete", "C42_nothing_to_do"], "any stores; supplied diffs must delete whole subtrees"),
    ("C43", "proved", ["C43_given", "C43_returned", "C43_unknown", "C43_empty_refuted"], "refuted for a diff without elements"),
    ("C44", "proved", ["C44_skip_src", "C44_skip_dst", "C44_given_refuted"], "for computed diffs; refuted for supplied ones"),
    ("C45", "proved", ["C45_ignored", "C45_cascade_refuted"], "LocalStore destination, and not below a deleted SKIP_CHILDREN_ON_DELETE object; refuted below one"),
    ("C46", "proved", ["C46_counts", "C46_reaches_total", "C46_skip_refuted"], "refuted for SKIP_CHILDREN_ON_DELETE deletions"),
    ("C47", "proved", ["C47_records", "C47_natural_refuted"], "LocalStore destination; refuted under NATURAL_DELETION_ORDER"),
    ("C48", "proved", ["C48_move_refuted"], "the property is false"),
    ("C49", "proved", ["C49_field_refuted", "C49_type_refuted"], "the property is false"),
    ("C50", "proved", ["C50_sync_to", "C50_diff_to"], "true by definition, as in the source"),
    ("C51", "proved", ["C51_round_trip", "C51_dict", "C51_default_identifier_refuted", "C51_repeated_top_level_refuted"], "LocalStore; identifiers that equal their default are rendered like it and top_level has no repeats, both conditions shown necessary"),
    ("C52", "proved", ["C52_traversal_complete", "C52_rendering"], ""),
    ("C53", "proved", ["C53_get_path", "C53_set_key"], ""),
    ("C54", "proved", ["C54_back_end", "C54_local", "C54_redis", "C54_colon_refuted"], "type names and store ids without ':' and glob characters; refuted with ':'"),
    ("C55", "proved", ["C55_order"], "objects stored under their own unique ids, once each; same restriction on names as C54"),
    ("C56", "proved", ["C56_transitive", "C56_ignore_refuted", "C56_top_refuted"], "under the stated conditions, two of which are shown necessary"),
    ("C57", "proved", ["C57_create", "C57_update", "C57_delete", "C57_status"], "fields are unvalidated values, as in DESIGN.md"),
    ("C58", "proved", ["C58_copy", "C58_given", "C58_count", "C58_orphan_refuted", "C58_types_refuted"], "conditions of C32 and those of entire (CopySpec.v), two of which are shown necessary"),
    ("C59", "proved", ["C59_values", "C59_elements", "C59_sign_refuted"], "ordering hooks that yield each child once; refuted for a child type named '+'"),
    ("C60", "proved", ["C60_report", "C60_one", "C60_nothing"], ""),
    ("C61", "proved", ["C61_siblings", "C61_operators", "C61_transitive", "C61_sorting", "C61_order_refuted", "C61_equal_refuted"], "siblings; refuted for elements of different diffs"),
    ("C62", "proved", ["C62_diff", "C62_sync"], "hooks that take no notice of callbacks and debug records; callbacks only observe"),
    ("C63", "proved", ["C63_each", "C63_which", "C63_rest"], "conditions of C32, for computed diffs; the values of fields that hooks write are theirs"),
    ("C64", "proved", ["C64_order"], "conditions of C32; elements of a computed diff; fields that hooks write are left out"),
    ("C65", "proved", ["C65_model", "C65_adapter", "C65_complete", "C65_sound", "C65_reads", "C65_other_refuted", "C65_cycle_refuted"], ""),
    ("C66", "proved", ["C66_parts", "C66_disjoint", "C66_names", "C66_recreate", "C66_required_refuted"], "fields are unvalidated values, as in DESIGN.md"),
    ("C67", "proved", ["C67_names", "C67_str", "C67_objects", "C67_tells", "C67_same_refuted"], ""),
    ("C68", "proved", ["C68_alone", "C68_isolated", "C68_ends"], "store ids without ':' and glob characters; SCAN is one step, as in DESIGN.md"),
    ("C69", "proved", ["C69_adds", "C69_remove_refuted", "C69_get_all_refuted", "C69_instantiate_refuted"], "additions only; refuted for other calls"),
    ("C70", "proved", ["C70_left", "C70_compare_refuted", "C70_repeat_refuted"], "no SKIP_CHILDREN_ON_DELETE, fields that hooks write are left out, names without ':' and glob characters; the second part is refuted"),
    ("C71", "proved", ["C71_once", "C71_remove", "C71_history", "C71_retry", "C71_remove_refuted", "C71_nan_refuted"], "the last sentence is refuted"),
    ("C72", "proved", ["C72_each", "C72_error", "C72_rest"], "conditions of C32, for computed diffs; hooks that return an object have called the method they override; the values of fields that hooks write are theirs"),
    ("C73", "proved", ["C73_again", "C73_retry", "C73_flags_refuted"], "conditions of C32, diffs computed before they are applied; the condition on flags is shown necessary; refuted for deletions in C41_retry_refuted"),
    ("C74", "proved", ["C74_repr", "C74_tells", "C74_summary", "C74_str", "C74_diff_refuted"], "the last sentence is refuted; characters outside ASCII are not escaped in the model"),
    ("C75", "proved", ["C75_load", "C75_ready", "C75_sync", "C75_clash_refuted"], "LocalStores, no flags; the last sentence is refuted"),
    ("C76", "proved", ["C76_iff", "C76_equal", "C76_skip_refuted"], "conditions of C32 and C58; the last sentence is refuted"),
    ("C77", "proved", ["C77_run", "C77_agree", "C77_skip_refuted"], "LocalStores, no flags on classes; the last sentence is refuted"),
    ("C78", "proved", ["C78_merge", "C78_keys", "C78_moved_refuted"], "conditions of C32 and C58; the last sentence is refuted"),
    ("C79", "proved", ["C79_run", "C79_hub", "C79_order_refuted"], "LocalStores, the same classes without flags; the last sentence is refuted"),
    ("C80", "proved", ["C80_flags", "C80_ignored", "C80_ignore_refuted"], "conditions of C32 and C58 except those on flags; the last sentence is refuted"),
    ("C81", "proved", ["C81_iff", "C81_refused", "C81_cases", "C81_trace_refuted", "C81_self_refuted"], "LocalStores; records that are not their own parent; the last sentence is refuted"),
    ("C82", "proved", ["C82_diff", "C82_nothing", "C82_cut", "C82_computed", "C82_readers", "C82_repeat_refuted", "C82_writers_refuted"], "diffs that do not move an object, i.e. create and delete the same key; the last sentence is refuted"),
    ("C83", "proved", ["C83_calls", "C83_processes", "C83_names", "C83_all", "C83_count", "C83_diff", "C83_sync", "C83_listing_refuted", "C83_skip_refuted"], "for diffs, types without ':' and glob characters and entries under their own keys; the last sentence is refuted"),
    ("C84", "proved", ["C84_levels", "C84_before", "C84_first", "C84_config", "C84_silence", "C84_success", "C84_formatter", "C84_more_refuted", "C84_last_refuted", "C84_raise_refuted"], "diffs that are well-posed for the destination; the last sentence is refuted"),
    ("C85", "proved", ["C85_ends", "C85_store", "C85_fresh", "C85_together_refuted"], "the last sentence is refuted"),
    ("C86", "proved", ["C86_load", "C86_keep", "C86_ready", "C86_sync", "C86_again", "C86_orphans_refuted"], "the last sentence is refuted"),
    ("C87", "proved", ["C87_local", "C87_redis", "C87_both", "C87_dangling", "C87_data_refuted"], "the last sentence is refuted"),
    ("C88", "proved", ["C88_load", "C88_firsts", "C88_latest", "C88_again", "C88_sync", "C88_parent_refuted", "C88_order_refuted"], "the last sentence is refuted"),
    ("C89", "proved", ["C89_in_step", "C89_attempts", "C89_copy", "C89_hasty_refuted", "C89_skip_refuted"], "the last sentence is refuted"),
    ("C90", "proved", ["C90_read", "C90_tells", "C90_line", "C90_model", "C90_same", "C90_nan_refuted"], "the last sentence is refuted"),
    ("C91", "proved", ["C91_plain", "C91_calls", "C91_progress", "C91_exceptions", "C91_complete", "C91_others", "C91_given_refuted"], "the last sentence is refuted"),
    ("C92", "proved", ["C92_plain", "C92_only", "C92_exceptions", "C92_progress", "C92_elements", "C92_whole", "C92_sync", "C92_moment_refuted"], "the last sentence is refuted"),
    ("C93", "proved", ["C93_only_written", "C93_second", "C93_rounds", "C93_agree", "C93_update_refuted"], "the last sentence is refuted"),
    ("C94", "proved", ["C94_run", "C94_agree", "C94_arrives", "C94_vanishes", "C94_orphan_refuted", "C94_rename_refuted"], "the last sentence is refuted"),
    ("C95", "proved", ["C95_run", "C95_heals", "C95_others", "C95_delete_refuted"], "the last sentence is refuted"),
    ("C96", "proved", ["C96_run", "C96_agree", "C96_arrives", "C96_forgotten_refuted"], "the last sentence is refuted"),
    ("C97", "proved", ["C97_run", "C97_alike", "C97_settled", "C97_disagree_refuted"], "the last sentence is refuted"),
    ("C98", "proved", ["C98_edges", "C98_exact", "C98_once", "C98_top", "C98_text", "C98_names_refuted", "C98_shared_refuted", "C98_newline_refuted"], "without the conditions on names and parents the tree is refuted to be exact"),
    ("C99", "proved", ["C99_at_most", "C99_exactly", "C99_len", "C99_skip_refuted", "C99_ignore_refuted"], "exactness is refuted for objects marked SKIP_CHILDREN_ON_DELETE"),
    ("C100", "proved", ["C100_own", "C100_built", "C100_shared", "C100_apart", "C100_last", "C100_attach", "C100_meta", "C100_args", "C100_attach_refuted", "C100_get_refuted"], "LocalStores only; get_or_instantiate and the like are calls of these methods"),
    ("C101", "proved", ["C101_parts", "C101_empty_refuted"], "refuted for empty parts"),
    ("C102", "proved", ["C102_strangers", "C102_intact", "C102_new", "C102_given_refuted"], "refuted for a program that adds an object of one adapter to another"),
    ("C103", "proved", ["C103_stops", "C103_once", "C103_diff", "C103_sync", "C103_retry", "C103_foreign_refuted", "C103_remove_refuted"], "refuted for exceptions that diffsync catches and for repeating a removal with children"),
    ("C104", "proved", ["C104_equal", "C104_self", "C104_one_store", "C104_nan_refuted"], "refuted for NaN"),
    ("C105", "proved", ["C105_calls", "C105_get_all", "C105_remove", "C105_sync", "C105_system", "C105_processes", "C105_cascade_refuted", "C105_fewer_refuted"], "the bound for synchronisations is refuted for objects with SKIP_CHILDREN_ON_DELETE; the bounds are reached"),
    ("C106", "proved", ["C106_diff", "C106_sync", "C106_objects_refuted"], "refuted in terms of the objects on the server"),
    ("C107", "proved", ["C107_given", "C107_whole", "C107_computed", "C107_mixed_refuted", "C107_exponential", "C107_linear_refuted"], "refuted for diffs with something else below a deletion"),
]
json.dump({"claims": [dict(property=p, status=s, theorems=t, note=n) for p, s, t, n in CLAIMS]},
          open(os.path.join(ROOT, "MANIFEST.json"), "w"), indent=1)
