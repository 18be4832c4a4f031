{
 "claims": [
  {
   "property": "C01",
   "status": "proved",
   "theorems": [
    "C01_synlist_coherent",
    "C01_after_termfound_refuted"
   ],
   "note": "Invariant over all histories of public mutating calls (also ones that raise), excluding an add_synonym that raises TermFound (which the property excludes; the refutation shows why) and self-merge."
  },
  {
   "property": "C02",
   "status": "partial",
   "theorems": [
    "C02_rejected_unchanged_partial",
    "C02_termfound_effect",
    "C02_add_synonym_refuted",
    "C02_merge_dead_refuted"
   ],
   "note": "Code violates the claim: add_synonym raising TermFound leaves the term in the set, and merge naming a dead item by index stops half-way. Proved for every other rejected call; exact effect of the violating call proved."
  },
  {
   "property": "C03",
   "status": "proved",
   "theorems": [
    "C03_add_set"
   ],
   "note": "Full functional specification of add_set for string/None terms, all set iteration orders."
  },
  {
   "property": "C04",
   "status": "partial",
   "theorems": [
    "C04_merge_partial",
    "C04_self_merge_refuted"
   ],
   "note": "Full claim proved when the dominant item is not among the merged; the code destroys the item otherwise (refuted)."
  },
  {
   "property": "C05",
   "status": "partial",
   "theorems": [
    "C05_roundtrip_partial",
    "C05_unnamed_refuted"
   ],
   "note": "Round trip proved when every live item is named with one of its stored spellings; an unnamed item makes from_json raise (refuted)."
  },
  {
   "property": "C06",
   "status": "partial",
   "theorems": [
    "C06_split_term_refuted",
    "C06_split_term_actual",
    "C06_refused_split_unchanged_partial"
   ],
   "note": "The code never creates the new item (refuted, and exact actual behaviour proved for every reachable state)."
  },
  {
   "property": "C07",
   "status": "proved",
   "theorems": [
    "C07_are_synonyms_equivalence"
   ],
   "note": ""
  },
  {
   "property": "C08",
   "status": "proved",
   "theorems": [
    "C08_pad_terminates",
    "C08_trim_removes_zeros",
    "C08_normal_forms"
   ],
   "note": "Regular expressions tied to an independent inductive description; strings are Latin-1."
  },
  {
   "property": "C09",
   "status": "proved",
   "theorems": [
    "C09_one_cas_per_item",
    "C09_refuted_for_raising_merge"
   ],
   "note": "Invariant over all histories (calls may raise, except merges failing half-way, excluded by the property; the refutation shows why)."
  },
  {
   "property": "C10",
   "status": "proved",
   "theorems": [
    "C10_check_cas_exact"
   ],
   "note": ""
  },
  {
   "property": "C11",
   "status": "partial",
   "theorems": [
    "C11_lookup_partial",
    "C11_exact_when_names_are_unambiguous",
    "C11_order_refuted",
    "C11_unspecified_refuted"
   ],
   "note": "For requests of proper names: a match is found whenever a matching path exists and lies on a path matching a non-empty final part of the request; exact and order-independent when the names occur nowhere off the path. Refuted in general (names popped in failing branches are not restored)."
  },
  {
   "property": "C12",
   "status": "partial",
   "theorems": [
    "C12_add_subs_inherits",
    "C12_from_json_inherits",
    "C12_set_elementary_marks_all",
    "C12_set_elementary_keeps_shape",
    "C12_unset_self",
    "C12_unset_children_refuted",
    "C12_merge_refuted"
   ],
   "note": "All parts proved except unset_elementary(unset_children=True), which is refuted: it marks everything below as elementary."
  },
  {
   "property": "C13",
   "status": "partial",
   "theorems": [
    "C13_round_trip_partial",
    "C13_elementary_root_refuted",
    "C13_child_named_as_parent_refuted"
   ],
   "note": "Proved for hierarchies with a non-elementary root, inherited flags and no subcompartment named like a synonym of its parent; both extra conditions are necessary (refutations)."
  },
  {
   "property": "C14",
   "status": "partial",
   "theorems": [
    "C14_merge_keeps_names",
    "C14_merge_total",
    "C14_merge_subs_keeps_names",
    "C14_collapse_keeps_names",
    "C14_uproot_keeps_names",
    "C14_add_subs_keeps_names",
    "merge_existing_id",
    "C14_added_path_resolves_partial",
    "C14_added_path_refuted",
    "C14_rename_keeps_names"
   ],
   "note": "No operation loses a name (all iteration orders). An added path resolves unless a step is a synonym of the compartment it is added to (refuted there)."
  },
  {
   "property": "C15",
   "status": "partial",
   "theorems": [
    "C15_scaled_range",
    "C15_presented_scores",
    "C15_unit_partial",
    "C15_refuted_zero_range",
    "C15_refuted_unit"
   ],
   "note": "Scaling proved for every nonzero range (termination and 1..1000). Units proved for every unit whose first letter is read as intended; base units beginning with a prefix letter (m, m3, Pa) are misread (refuted), zero range raises (refuted)."
  },
  {
   "property": "C16",
   "status": "proved",
   "theorems": [
    "C16_summary_addition",
    "C16_addition_returns_iff"
   ],
   "note": "Exact rationals; also an exact characterisation of when addition is accepted. Summaries are immutable values, so a rejected addition changes nothing."
  },
  {
   "property": "C17",
   "status": "proved",
   "theorems": [
    "C17_no_score_lost",
    "C17_refuted_at_scale_zero"
   ],
   "note": "All histories (raising calls included) with nonzero scales; the refutation shows that a scale of zero at the time of adding breaks the claim."
  },
  {
   "property": "C18",
   "status": "partial",
   "theorems": [
    "C18_aggregate_partial",
    "C18_aggregate_star_partial",
    "C18_refuted_double_scale",
    "C18_refuted_failing_key"
   ],
   "note": "Proved: total of the aggregate is scale * total (equal iff unscaled), components are the distinct keys. The code applies the scale twice and raises when the key function fails (refuted)."
  },
  {
   "property": "C19",
   "status": "proved",
   "theorems": [
    "C19_flatten_total",
    "C19_flatten_returns",
    "C19_refuted_private_nested"
   ],
   "note": "Whenever flatten returns, for any nesting depth and scales; sufficient condition for returning; private nested results raise KeyError."
  },
  {
   "property": "C20",
   "status": "proved",
   "theorems": [
    "C20_contributions",
    "C20_total_within_range"
   ],
   "note": ""
  },
  {
   "property": "C21",
   "status": "partial",
   "theorems": [
    "C21_weighting_partial",
    "C21_collected_scores",
    "C21_refuted_always_raises"
   ],
   "note": "The shipped code raises for every weighting with at least one component (proved for all inputs)."
  },
  {
   "property": "C22",
   "status": "partial",
   "theorems": [
    "C22_add_partial",
    "C22_refuted_scaled_operand",
    "C22_refuted_lost_component",
    "C22_refuted_shared_component"
   ],
   "note": "Proved for unscaled first operand without key clashes; three refutations delimit it."
  },
  {
   "property": "C23",
   "status": "proved",
   "theorems": [
    "C23_references_agree",
    "C23_reference_effect"
   ],
   "note": "All histories, including calls that raise."
  },
  {
   "property": "C24",
   "status": "partial",
   "theorems": [
    "C24_shares_add_up_partial",
    "C24_refuted_late_reference_value",
    "C24_refuted_zero_total"
   ],
   "note": "Proved along every history whose later edits do not write a reference value or leave a zero total while allocated; the code keeps a stale total in those cases (refuted)."
  },
  {
   "property": "C25",
   "status": "partial",
   "theorems": [
    "C25_second_value_refused",
    "C25_second_share_refused",
    "C25_add_dups_sums",
    "C25_add_dups_sums_share",
    "C25_value_written_once",
    "C25_error_changes_nothing",
    "C25_refuted_zero",
    "C25_refuted_dups_on_reference",
    "C25_refuted_nonstring_termination"
   ],
   "note": "Proved for nonzero values and string terminations over all histories; three deviations refuted (second value 0 ignored, add_dups on the reference itself, non-string termination overwrites)."
  },
  {
   "property": "C26",
   "status": "proved",
   "theorems": [
    "C26_reference_relation",
    "C26_causal_share",
    "C26_unallocated"
   ],
   "note": ""
  },
  {
   "property": "C27",
   "status": "proved",
   "theorems": [
    "C27_partition_of_unity",
    "C27_when"
   ],
   "note": ""
  },
  {
   "property": "C28",
   "status": "proved",
   "theorems": [
    "C28_find_exchange"
   ],
   "note": "If-and-only-if for each of the four outcomes."
  },
  {
   "property": "C29",
   "status": "partial",
   "theorems": [
    "C29_round_trip_partial",
    "C29_refuted_no_value",
    "C29_refuted_zero_share",
    "C29_refuted_both_directions"
   ],
   "note": "Proved for json_ok processes (valued, no zero shares, references of distinct flows, up-to-date allocation total); three losses refuted."
  },
  {
   "property": "C30",
   "status": "proved",
   "theorems": [
    "C30_components"
   ],
   "note": "Both directions: two indexed product flows share a component iff each is reachable from the other."
  },
  {
   "property": "C31",
   "status": "proved",
   "theorems": [
    "C31_coverage",
    "C31_entries",
    "C31_terminates"
   ],
   "note": "The traversal terminates for every finite database and covers the whole dependency closure exactly once."
  },
  {
   "property": "C32",
   "status": "proved",
   "theorems": [
    "C32_background_closed",
    "C32_background_is",
    "C32_no_missing_index",
    "C32_matrices"
   ],
   "note": "Closure, exact characterisation of the background, and exact contents of the published A* and B* matrices (single batch)."
  },
  {
   "property": "C33",
   "status": "proved",
   "theorems": [
    "C33_foreground_order"
   ],
   "note": ""
  },
  {
   "property": "C34",
   "status": "proved",
   "theorems": [
    "C34_neumann",
    "C34_exact_stop"
   ],
   "note": "Exact rationals; the returned demand is the truncated Neumann series, residual stated exactly."
  },
  {
   "property": "C35",
   "status": "partial",
   "theorems": [
    "C35_order_partial",
    "C35_refuted_incremental",
    "C35_refuted_tie"
   ],
   "note": "Single-batch results are independent of the order; adding reference products one call at a time is order dependent (refuted), as are ties between equally large components."
  },
  {
   "property": "C36",
   "status": "partial",
   "theorems": [
    "C36_published_unchanged_partial",
    "C36_refuted_exception",
    "C36_refuted_stale_component",
    "C36_index_restored_partial"
   ],
   "note": "The published matrices are unchanged by a rejected product; the traversal state is not rolled back (refuted twice)."
  },
  {
   "property": "C37",
   "status": "proved",
   "theorems": [
    "C37_decision_table"
   ],
   "note": ""
  },
  {
   "property": "C38",
   "status": "proved",
   "theorems": [
    "C38_linear"
   ],
   "note": "For every nonzero factor."
  },
  {
   "property": "C39",
   "status": "partial",
   "theorems": [
    "C39_balanced_partial",
    "C39_refuted_process",
    "C39_refuted_conversion",
    "C39_refuted_background"
   ],
   "note": "Proved for foreground nodes and processes whose activity equals their reference flow, balance flow characterized by 1 in the conserved quantity, no child collapsed into a background fragment; each excluded case is refuted."
  },
  {
   "property": "C40",
   "status": "partial",
   "theorems": [
    "C40_net_amounts",
    "C40_each_flow_once_partial",
    "C40_refused_iff",
    "C40_refuted_pass_through",
    "C40_refuted_cancelling"
   ],
   "note": "Net amounts and the internal list are proved in general; each flow once holds unless the reference flow is passed through (refuted)."
  },
  {
   "property": "C41",
   "status": "partial",
   "theorems": [
    "C41_involution",
    "C41_no_effect_partial",
    "C41_refuted_process_node",
    "C41_refuted_zero"
   ],
   "note": "Twice restores, always. No effect on amounts is proved for non-reference, non-background fragments terminated to nothing or to another fragment with nonzero value; refuted for process nodes with children and for a cached zero."
  },
  {
   "property": "C42",
   "status": "proved",
   "theorems": [
    "C42_exchange_value",
    "C42_termination",
    "C42_default_values"
   ],
   "note": ""
  },
  {
   "property": "C43",
   "status": "partial",
   "theorems": [
    "C43_reads_back_partial",
    "C43_cached_reads_back",
    "C43_refuted_zero",
    "C43_refuted_scenario_1",
    "C43_refused_changes_nothing",
    "C43_digit_names",
    "C43_cached_once"
   ],
   "note": "Refuted for a cached value of zero and for the scenario names \"0\" and \"1\"."
  },
  {
   "property": "C44",
   "status": "partial",
   "theorems": [
    "C44_acyclic_terminates",
    "C44_terminate_keeps_sound_partial",
    "C44_history_terminates_partial",
    "C44_refuted_cutoff_top",
    "C44_refuted_aggregated",
    "C44_refuted_interior"
   ],
   "note": "Refuted in general (three ways to make traverse() recurse without end). Proved: acyclic models are traversed in bounded depth, and terminate() keeps a model acyclic whenever its own check lists the top of the tree if it is reachable."
  },
  {
   "property": "C45",
   "status": "partial",
   "theorems": [
    "C45_links_agree_partial",
    "C45_refuted_move"
   ],
   "note": "Proved for histories that set the parent only of parentless fragments; moving a fragment is refuted."
  },
  {
   "property": "C46",
   "status": "proved",
   "theorems": [
    "C46_failed_add_changes_nothing",
    "C46_successful_add",
    "C46_index_agrees_with_entities",
    "C46_count_by_type",
    "C46_entities_by_type",
    "C46_new_entity_counter",
    "C46_one_key_per_entity",
    "C46_one_key_refuted_for_direct_adds"
   ],
   "note": "All histories, including outside changes of the entities and registry operations. One key per entity holds for add(); the private _add can be called with two keys (refuted there)."
  },
  {
   "property": "C47",
   "status": "partial",
   "theorems": [
    "C47_one_reference_per_source",
    "C47_archive_reference_defined",
    "C47_failed_registration_changes_nothing",
    "C47_registration_effect",
    "C47_no_registration_lost_partial",
    "C47_no_registration_lost_refuted",
    "C47_archive_reference_stable",
    "C47_names_maps_sources_to_references",
    "C47_get_sources",
    "C47_query_is_pure_refuted",
    "C47_local_reference",
    "C47_local_reference_is_a_file_name",
    "C47_local_reference_distinct_refuted"
   ],
   "note": "At most one reference per source, exact effect of every registration and failure atomicity proved; \"no registration is lost\" is false when the own-source override lands on a reference that already has sources (refuted), proved otherwise."
  },
  {
   "property": "C48",
   "status": "proved",
   "theorems": [
    "C48_lookup_order",
    "C48_lookup_order_in_any_archive",
    "C48_none_key",
    "C48_fetch_only_when_missing"
   ],
   "note": "Chains of upstream archives of any length; includes the exact effect on origins."
  },
  {
   "property": "C49",
   "status": "proved",
   "theorems": [
    "C49_case_insensitive_map",
    "C49_case_does_not_matter",
    "C49_items",
    "C49_inherited_methods_refuted"
   ],
   "note": "All histories of item assignment and pop (and of the inherited update and del with lower-case keys). C49_inherited_methods_refuted shows that the methods inherited from dict (update, get, constructor arguments) are not case-insensitive; they are outside the property."
  },
  {
   "property": "C50",
   "status": "partial",
   "theorems": [
    "C50_lookup_partial",
    "C50_write_once",
    "C50_scale_partial",
    "C50_scale_refuted",
    "C50_special_names_refuted",
    "C50_add_then_read",
    "C50_cf",
    "C50_merge_refuted"
   ],
   "note": "All histories in which None is not stored or nothing is scaled. Refuted: scaling stops midway at a None value; the locations \"flow\" and \"quantity\" are never found."
  },
  {
   "property": "C51",
   "status": "partial",
   "theorems": [
    "C51_conversions_unchanged",
    "C51_old_reference_unit",
    "C51_new_reference_is_one_partial",
    "C51_change_possible",
    "C51_new_reference_is_one_refuted",
    "C51_reference_argument_refuted",
    "C51_failed_change_refuted"
   ],
   "note": "Conversions between all pairs at all locales are unchanged: proved in full. The new reference has factor 1 at GLO and wherever it has no own value; refuted at its other locales. Also refuted: changing the reference with add_characterization(reference=True), which always raises, after making the change."
  },
  {
   "property": "C52",
   "status": "proved",
   "theorems": [
    "C52_defined",
    "C52_composition",
    "C52_steps_possible",
    "C52_identity",
    "C52_round_trip"
   ],
   "note": ""
  },
  {
   "property": "C53",
   "status": "proved",
   "theorems": [
    "C53_one_entry_per_source",
    "C53_at_most_one",
    "C53_save_step",
    "C53_never_two_entries_of_a_source",
    "C53_downloaded_entry_replaced",
    "C53_mixed_history_refuted"
   ],
   "note": "Histories of resources with a data source: the file is exactly the last entry of each source, in order. Any history whatsoever (failed saves included): never two entries of one source, every save keeps in order the entries it does not match. C53_mixed_history_refuted: saving a plain resource beside a not yet downloaded one raises KeyError (nothing is changed)."
  },
  {
   "property": "C54",
   "status": "partial",
   "theorems": [
    "C54_crash_partial",
    "C54_interrupted_save_refuted"
   ],
   "note": "Crash points of a save: other references always load as before; the reference being saved keeps its entries unless its file is left unreadable. Missing because false: C54_interrupted_save_refuted shows every save has a crash point after which nothing of the reference is found and the next save makes the loss permanent."
  },
  {
   "property": "C55",
   "status": "partial",
   "theorems": [
    "C55_resolve_exact",
    "C55_get_resource",
    "C55_unknown_origin_refuted"
   ],
   "note": "resolve and get_resource are exact with respect to the keys of the resolver table. The refutation shows that a key can exist with no resource (after has_resource or a failed delete), so UnknownOrigin is not raised for such references."
  },
  {
   "property": "C56",
   "status": "partial",
   "theorems": [
    "C56_memory_and_disk_in_step",
    "C56_add_idempotent",
    "C56_deleted_is_gone",
    "C56_restart_sorted",
    "C56_delete_unstored_refuted",
    "C56_filetype_refuted",
    "C56_delete_effect"
   ],
   "note": "Refinement of a list specification over all histories of add/delete/restart, for resources with a data source and no filetype argument, results included. Refuted parts: deleting a memory-only resource raises FileNotFoundError after removing it; a filetype argument changes the source on reload."
  },
  {
   "property": "C57",
   "status": "partial",
   "theorems": [
    "C57_accepted",
    "C57_involution",
    "C57_rejected_partial",
    "C57_none",
    "C57_rejected_refuted"
   ],
   "note": "Everything but the kind of the error for the empty string (IndexError) and unhashable arguments (TypeError), which is refuted."
  },
  {
   "property": "C58",
   "status": "partial",
   "theorems": [
    "C58_equal_hash_partial",
    "C58_no_external_ref",
    "C58_refs_same_origin_partial",
    "C58_refuted"
   ],
   "note": "Refuted in general; proved when the uuid is determined by origin and external reference."
  },
  {
   "property": "C59",
   "status": "partial",
   "theorems": [
    "C59_history_independent_partial",
    "C59_other_locale_refuted",
    "C59_conversion_refuted",
    "C59_refresh_partial",
    "C59_recorded_value_stands",
    "C59_refresh_refuted"
   ],
   "note": "Refuted across locales (the first locale sticks) and, even for one locale, when a reference conversion gets recorded on the flow. Proved for one locale, no refresh, and flows that need no conversion."
  },
  {
   "property": "C60",
   "status": "partial",
   "theorems": [
    "C60_lookup_coherent_partial",
    "C60_refuted_spelling",
    "C60_refuted_merge"
   ],
   "note": "Proved for merge-free histories and the trimmed / padded spellings; the code violates the rest (two refutations)."
  },
  {
   "property": "C61",
   "status": "partial",
   "theorems": [
    "C61_known_terms_stay_partial",
    "C61_refuted"
   ],
   "note": "No known term moves (proved); an empty unnamed item is left behind (refuted)."
  },
  {
   "property": "C62",
   "status": "partial",
   "theorems": [
    "C62_lookup_and_scale_partial",
    "C62_refuted_prefix_keys"
   ],
   "note": "Proved for prefix-free key sets (UUIDs); refuted when a key is a prefix of an earlier one."
  },
  {
   "property": "C63",
   "status": "partial",
   "theorems": [
    "C63_traversal_totals_partial",
    "C63_refuted_repeated_fragment"
   ],
   "note": "Totals are exact up to the entries recorded in failed; a fragment occurring twice with different magnitudes loses its second score (refuted)."
  },
  {
   "property": "C64",
   "status": "proved",
   "theorems": [
    "C64_null_is_zero"
   ],
   "note": ""
  },
  {
   "property": "C65",
   "status": "proved",
   "theorems": [
    "C65_inventory_of_reference",
    "C65_inventories_add_up_partial"
   ],
   "note": "The inventory of a reference; the add-up statement inherits the guard of C24."
  },
  {
   "property": "C66",
   "status": "partial",
   "theorems": [
    "C66_net_output_partial",
    "C66_refuted_input_reference",
    "C66_refuted_equal_self_use"
   ],
   "note": "Proved for output references whose positive self-uses total less than 1; wrong sign for input references and ignored equal self-use refuted."
  },
  {
   "property": "C67",
   "status": "proved",
   "theorems": [
    "C67_material_balance",
    "C67_gross_balance"
   ],
   "note": "Single batch (see C35 for incremental additions). The gross form assumes the guard of C66."
  },
  {
   "property": "C68",
   "status": "partial",
   "theorems": [
    "C68_cache_transparent_partial",
    "C68_check_elem_refuted",
    "C68_key_refuted"
   ],
   "note": "Proved for histories of full lookups by plain names; refuted after a check_elem lookup and for names that are empty or contain the separator."
  },
  {
   "property": "C69",
   "status": "partial",
   "theorems": [
    "C69_registry_survives_save_and_load_partial",
    "C69_write_registers_the_file",
    "C69_saved_archive_can_be_loaded_refuted",
    "C69_failed_write_changes_nothing_refuted"
   ],
   "note": "Proved when the reference is the one the archive was created with and the file is registered under it. Refuted otherwise: the saved dataReference is stale and loading raises SourceAlreadyKnown."
  },
  {
   "property": "C70",
   "status": "partial",
   "theorems": [
    "C70_merge_adds_only_missing_partial",
    "C70_merge_refused",
    "C70_assigned_entities_are_well_formed",
    "C70_merge_overwrites_refuted"
   ],
   "note": "Proved when shared properties are spelled the same in both entities; refuted otherwise (the membership test of merge is case-sensitive, the assignment is not)."
  },
  {
   "property": "C71",
   "status": "partial",
   "theorems": [
    "C71_reference_factor_is_one_partial",
    "C71_refuted"
   ],
   "note": "Proved for histories that do not write factors of the current reference quantity, store no None and set references without a location; each condition is needed (C71_refuted)."
  },
  {
   "property": "C72",
   "status": "partial",
   "theorems": [
    "C72_entity_equality_partial",
    "C72_reference_equality_partial",
    "C72_refuted"
   ],
   "note": "Equivalence among entities; reflexive and symmetric among references; transitivity, mixed symmetry and totality refuted."
  },
  {
   "property": "C73",
   "status": "partial",
   "theorems": [
    "C73_defined",
    "C73_default_unit",
    "C73_composition",
    "C73_inverse",
    "C73_table_scale",
    "C73_local_unit",
    "C73_refuted"
   ],
   "note": "Refuted parts: the reference unit missing from the table is not taken to be 1; imag raises TypeError."
  },
  {
   "property": "C74",
   "status": "partial",
   "theorems": [
    "C74_provenance",
    "C74_no_factor",
    "C74_deterministic_refuted",
    "C74_records"
   ],
   "note": "Provenance and absence proved for all databases; determinism refuted (the first element of a set is taken)."
  },
  {
   "property": "C75",
   "status": "partial",
   "theorems": [
    "C75_add_term_partial",
    "C75_refuted_empty"
   ],
   "note": "Proved for non-empty strings; the empty string gives a new nameless item on every call (refuted)."
  },
  {
   "property": "C76",
   "status": "partial",
   "theorems": [
    "C76_add_term_partial"
   ],
   "note": "Proved for non-empty strings when the call returns (it may raise for a clashing CAS number)."
  },
  {
   "property": "C77",
   "status": "partial",
   "theorems": [
    "C77_cas_name_last_resort_partial",
    "C77_refuted_merge"
   ],
   "note": "Proved for additions, whether they return or raise; explicit merges can break it (refuted)."
  },
  {
   "property": "C78",
   "status": "proved",
   "theorems": [
    "C78_traversal_tree",
    "C78_subfragment_accounts",
    "C78_tree_amounts"
   ],
   "note": "For all models in which a fragment has each child once and at most one balance flow (C79). Amounts of balance flows are C39; the contents of a subfragment are those of its unit inventory (C40)."
  },
  {
   "property": "C79",
   "status": "partial",
   "theorems": [
    "C79_balance_flows",
    "C79_second_refused",
    "C79_detached_refuted"
   ],
   "note": "All histories of creating fragments, declaring and undeclaring balance flows, setting values and reversing. Refuted when a balance flow is detached from its parent with unset_parent."
  },
  {
   "property": "C80",
   "status": "partial",
   "theorems": [
    "C80_listed",
    "C80_dependencies_partial",
    "C80_emissions_partial",
    "C80_refuted_background",
    "C80_refuted_acyclic",
    "C80_refuted_cancellation",
    "C80_refuted_treatment"
   ],
   "note": "Dependencies: proved for foreground products with output references and without cancelling amounts; refuted for every background product (AttributeError), for treatment processes (direction reversed) and for cancelling amounts. Emissions: all listed products. A database with no cycle cannot be flattened (refuted)."
  },
  {
   "property": "C81",
   "status": "partial",
   "theorems": [
    "C81_consumers_partial",
    "C81_duality_partial",
    "C81_refuted_no_foreground"
   ],
   "note": "Proved when there is a foreground and the references are ordinary outputs; without a foreground consumers raises (refuted)."
  },
  {
   "property": "C82",
   "status": "partial",
   "theorems": [
    "C82_lci_partial",
    "C82_balance",
    "C82_never_overstated",
    "C82_refuted_exact"
   ],
   "note": "Proved for ordinary (output) references, over exact rationals. The exact inventory is not reached in a cycle (refuted, default threshold and limit). Solvers spsolve and factorize are not modelled."
  },
  {
   "property": "C83",
   "status": "partial",
   "theorems": [
    "C83_roundtrip",
    "C83_queries",
    "C83_without_background",
    "C83_crash_first_write",
    "C83_refuted_crash_overwrite"
   ],
   "note": "The round trip and a crash during a first write are proved; a crash while overwriting mixes the two objects (refuted)."
  },
  {
   "property": "C84",
   "status": "partial",
   "theorems": [
    "C84_foreground_partial"
   ],
   "note": "Proved with traverse=False for output references without cancelling amounts."
  },
  {
   "property": "C85",
   "status": "proved",
   "theorems": [
    "C85_components"
   ],
   "note": "All databases and listed products."
  },
  {
   "property": "C86",
   "status": "partial",
   "theorems": [
    "C86_takes_over_partial",
    "C86_refuted_double_count",
    "C86_refuted_balance"
   ],
   "note": "The new node takes over the exchange in every scenario and adopts the fragment; but the former parent keeps the fragment as a child too, so every traversal that expands it counts the branch twice, and balance flows always raise (both refuted for all trees)."
  },
  {
   "property": "C87",
   "status": "partial",
   "theorems": [
    "C87_frame",
    "C87_split_keeps_results_partial",
    "C87_refuted_conversion",
    "C87_refuted_own_flow",
    "C87_refuted_cumulating"
   ],
   "note": "Proved for all trees without other subfragments in the scenario and branches without conversion, background or balance whose own flow is not cut off below; refuted for conversions and for own flows below."
  },
  {
   "property": "C88",
   "status": "partial",
   "theorems": [
    "C88_accept_all",
    "C88_refuted_subfragment"
   ],
   "note": "Proved for trees whose subfragments have been observed; refuted when they have not."
  },
  {
   "property": "C89",
   "status": "partial",
   "theorems": [
    "C89_clone_partial",
    "C89_refuted_scenario_cutoff",
    "C89_refuted_default_cutoff",
    "C89_refuted_subfragment"
   ],
   "note": "Proved for all trees without subfragments whose scenario terminations are not cut-offs and whose nodes with children are not cut off by default; each condition is needed (three refutations). The origin argument is not modelled: with an origin other than that of the fragment, cloning a fragment with children raises."
  },
  {
   "property": "C90",
   "status": "partial",
   "theorems": [
    "C90_round_trip_partial",
    "C90_save_total",
    "C90_refuted_balance_value",
    "C90_refuted_none_tag",
    "C90_refuted_field_tag",
    "C90_refuted_default_scenario",
    "C90_refuted_underscores",
    "C90_refuted_named_none",
    "C90_refuted_missing_target"
   ],
   "note": "Proved for all foregrounds with ordinary scenario names and tags, unique names, balance flows with the stored value 1 and terminations inside the foreground or to processes; each condition is needed (seven refutations). The flows and processes the files name are assumed to be found again; score caches are not modelled."
  },
  {
   "property": "C91",
   "status": "partial",
   "theorems": [
    "C91_interrupted_save_partial",
    "C91_refuted_moved"
   ],
   "note": "Proved for all pairs of states between which fragments are created, deleted or changed within their trees and names are neither changed nor reused; refuted when a fragment moved into another tree. entities.json is not modelled."
  },
  {
   "property": "C92",
   "status": "partial",
   "theorems": [
    "C92_who_decides",
    "C92_finds_iff_some_resource_has",
    "C92_refuted_not_implemented",
    "C92_refuted_not_opened",
    "C92_refuted_stop_iteration"
   ],
   "note": "Proved for all catalogs in which the candidates open and answer with an entity, None or EntityNotFound, and in general which candidate decides; refuted for candidates that raise NotImplementedError or cannot be opened, and for a known reference without resources."
  },
  {
   "property": "C93",
   "status": "partial",
   "theorems": [
    "C93_fetch_agrees_with_lookup",
    "C93_refuted_cached"
   ],
   "note": "Proved for every catalog when nothing is cached; refuted when the query already holds an answer and a better resource was registered since."
  },
  {
   "property": "C94",
   "status": "partial",
   "theorems": [
    "C94_history_independent_partial",
    "C94_answer_repeated",
    "C94_refuted_loading"
   ],
   "note": "Proved for candidates that are loaded or not static; refuted when a query loads a static archive, which then comes first."
  },
  {
   "property": "C95",
   "status": "partial",
   "theorems": [
    "C95_create_forest_partial",
    "C95_all_done_near_partial",
    "C95_all_done_in_order_partial",
    "C95_already_there",
    "C95_long_chain_abandoned_refuted",
    "C95_overlapping_dependency_refuted",
    "C95_same_exchange_dropped_refuted"
   ],
   "note": "Proved for all archives without a fragment for a process of the foreground, all foregrounds whose exchanges differ in process, flow, direction or termination, and dependencies outside the foreground. Refuted otherwise: a chain of twelve exchanges given backwards loses one, a dependency that is also in the foreground hides the exchange and all behind it (FlatBackground.dependencies yields such), equal exchanges with different values keep the first only."
  },
  {
   "property": "C96",
   "status": "partial",
   "theorems": [
    "C96_found_partial",
    "C96_added_stays_partial",
    "C96_named_partial",
    "C96_refused_name_changes_nothing_partial",
    "C96_added_again_partial",
    "C96_name_overwrites_refuted",
    "C96_reference_overwritten_refuted",
    "C96_merged_into_another_refuted"
   ],
   "note": "Proved for all histories whose uuids and names contain no slash, where no name is a uuid, entities of one link have one uuid, and no name gives the link of an entity already there. Refuted otherwise: naming a fragment like the external reference of a flow replaces the flow in the archive; adding a reference again overwrites its properties; with two entities of one uuid the wrong one may be merged into."
  },
  {
   "property": "C97",
   "status": "partial",
   "theorems": [
    "C97_no_orphan_no_change_partial",
    "C97_orphans_never_deleted_refuted"
   ],
   "note": "Only the half that nothing else changes is true: refuted for every reachable archive with an orphan, since _del_f deletes by uuid and entities are kept by link: KeyError, and nothing is deleted."
  },
  {
   "property": "C98",
   "status": "proved",
   "theorems": [
    "C98_traversal",
    "C98_inventory",
    "C98_totals",
    "C98_all_descended"
   ],
   "note": "All models, errors included."
  },
  {
   "property": "C99",
   "status": "partial",
   "theorems": [
    "C99_fragment_lcia_partial",
    "C99_descend_partial",
    "C99_used_twice_refuted",
    "C99_cached_null_refuted",
    "C99_direction_refuted",
    "C99_scenario_lost_refuted"
   ],
   "note": "Proved for traversals that list no fragment twice and whose aggregated nodes hold something, do not run against their fragment and have no null score cached. Refuted otherwise: a subfragment used twice in different amounts is counted once when descended into; a null score cached while descending hides the score once aggregated; an aggregated node with the direction of its fragment is counted negatively; an empty aggregated node inside another is scored without the scenario."
  },
  {
   "property": "C100",
   "status": "proved",
   "theorems": [
    "C100_decision",
    "C100_monotone",
    "C100_negative",
    "C100_round_trip"
   ],
   "note": "All declarations with integer levels and scores."
  },
  {
   "property": "C101",
   "status": "partial",
   "theorems": [
    "C101_publications_partial",
    "C101_interfaces",
    "C101_lookup",
    "C101_refuted_v1",
    "C101_refuted_delete",
    "C101_refuted_start",
    "C101_refuted_killed",
    "C101_refuted_prefix"
   ],
   "note": "Proved for all histories of version 2 publications whose origins stay known, with deletions taking effect at the next start. Refuted: version 1 publications are never written; a deleted publication is served (and its name blocked) until the restart; after one origin becomes unknown, or a crash while publishing, the server does not start at all; a request for a name that is not published is answered by any publication that begins with it."
  },
  {
   "property": "C102",
   "status": "partial",
   "theorems": [
    "C102_idempotent_partial",
    "C102_idempotent_unallocated",
    "C102_refuted_stale_total",
    "C102_refuted_set_and_unset"
   ],
   "note": "Proved whenever no stored allocation total is out of date after the first application; in particular for every configuration on archives without processes allocated by quantity. Refuted otherwise: the second application may change the share of an input that a product receives, or leave another allocation total."
  },
  {
   "property": "C103",
   "status": "partial",
   "theorems": [
    "C103_reload_partial",
    "C103_unset_everywhere",
    "C103_refuted_order",
    "C103_refuted_poison",
    "C103_refuted_missing",
    "C103_refuted_everywhere"
   ],
   "note": "Reload proved for references set and unset, no exchange both, on sources without processes allocated by quantity. Refuted: an exchange unset and set again is not a reference after the reload; an option that cannot be applied (direction in lower case, no such exchange) is stored and no later load succeeds; unset_reference without a process raises RuntimeError after one process."
  },
  {
   "property": "C104",
   "status": "proved",
   "theorems": [
    "C104_terminate_exact",
    "C104_first_index",
    "C104_after_config",
    "C104_direction",
    "C104_refuted_duplicates",
    "C104_refuted_stale"
   ],
   "note": "All archives. What the statement leaves out is false: a process with references of the flow in both directions is yielded twice if no direction is given; a reference set directly is not seen until the next re-index."
  },
  {
   "property": "C105",
   "status": "partial",
   "theorems": [
    "C105_exact",
    "C105_references_partial",
    "C105_refuted_unknown_flow",
    "C105_refuted_direction"
   ],
   "note": "Proved exact for flows the archive has, unless references are asked for: then direction and termination are ignored. Refuted: in a static archive an unknown flow matches every exchange."
  },
  {
   "property": "C106",
   "status": "partial",
   "theorems": [
    "C106_relation",
    "C106_unit_partial",
    "C106_refuted_value",
    "C106_default_reference"
   ],
   "note": "Exact description of the answer. With a reference flow the value of the reference divides twice: right iff that value is 1 or nothing is exchanged; without a reference flow (one reference) the answer is right."
  },
  {
   "property": "C107",
   "status": "partial",
   "theorems": [
    "C107_background_flows",
    "C107_in_background_partial",
    "C107_arguments",
    "C107_refuted_exterior",
    "C107_refuted_in_background",
    "C107_refuted_bg_lcia",
    "C107_refuted_process_argument"
   ],
   "note": "Proved: background_flows; arguments given as references or reference exchanges. Refuted: exterior_flows raises AttributeError as soon as there is an exterior flow; a static archive has everything in the background; bg_lcia always raises; a process object is asked for under a flow that does not exist."
  },
  {
   "property": "C108",
   "status": "partial",
   "theorems": [
    "C108_reads_partial",
    "C108_resources",
    "C108_assigned_partial",
    "C108_merge",
    "C108_make_ref",
    "C108_refuted_none",
    "C108_refuted_empty",
    "C108_refuted_resources",
    "C108_refuted_capital",
    "C108_refuted_shadowed",
    "C108_refuted_stale",
    "C108_refuted_fragment"
   ],
   "note": "Proved for one resource and values that are neither None nor empty. Refuted: a None property raises EntityNotFound, an empty one KeyError; the first resource that does not raise decides; names with capitals or read before cannot be assigned; later changes of the entity are not seen; merge takes the right one; a fragment can be referenced once."
  },
  {
   "property": "C109",
   "status": "partial",
   "theorems": [
    "C109_reference",
    "C109_same_locale_partial",
    "C109_profile_first",
    "C109_refuted_locale",
    "C109_refuted_unavailable",
    "C109_refuted_null"
   ],
   "note": "Proved: factor 1 for the reference quantity always; the source's factor if asked for at one locale only, or if the profile was taken first. Refuted: the locale asked first decides later answers; a source that could not answer once is not asked again; a null characterization is None after the profile, 0 before."
  },
  {
   "property": "C110",
   "status": "partial",
   "theorems": [
    "C110_default",
    "C110_queries",
    "C110_single_reference",
    "C110_given_reference",
    "C110_refuted_string",
    "C110_refuted_relation",
    "C110_refuted_stale"
   ],
   "note": "Proved: the default; queries with a flow, an exchange or the default. Refuted: an external_ref is refused with AttributeError; exchange_relation without a reference flow always raises; references are those of the time the reference was made."
  },
  {
   "property": "C111",
   "status": "partial",
   "theorems": [
    "C111_round_trip_partial",
    "C111_refuted_one_location",
    "C111_refuted_beside_global",
    "C111_refuted_quantity_elsewhere",
    "C111_refuted_reference_elsewhere",
    "C111_refuted_external_ref",
    "C111_refuted_properties",
    "C111_refuted_names",
    "C111_refuted_flow_elsewhere",
    "C111_refuted_incomplete"
   ],
   "note": "Proved for archives whose factors are global or for two or more locations without a global one, with JSON values as properties, derivable external references and everything referred to in the archive. Refuted: a factor for one location becomes global; other locations beside a global factor, factors for quantities elsewhere, underivable external references, None properties are lost; objects become texts; a property named tags, external_ref or entity_type makes the file unreadable; without complete only references are kept."
  },
  {
   "property": "C112",
   "status": "partial",
   "theorems": [
    "C112_index_partial"
   ],
   "note": "Proved for archives with JSON values as properties and external references from which the uuid can be derived, whose flows and processes refer to quantities and flows of the archive for their references; other factors and exchanges may be arbitrary. Not modelled: the catalog names (C69), compression, the existence check of the index file."
  },
  {
   "property": "C113",
   "status": "partial",
   "theorems": [
    "C113_table",
    "C113_frame",
    "C113_grid",
    "C113_refuted_text",
    "C113_refuted_row_lost",
    "C113_refuted_short_location",
    "C113_refuted_ditto"
   ],
   "note": "Proved for the lines of tables with one line per row and of data frames with several, and for the grid as a data frame. Refuted: a grid of flowables can never be printed as text (its header lacks a heading); a row without values has no line and makes text fail; a location of one character makes the data frame fail; a row component that is itself two quotation marks cannot be told from a repetition. Not modelled: number formatting, pandas, Excel."
  },
  {
   "property": "C114",
   "status": "partial",
   "theorems": [
    "C114_init",
    "C114_flowables",
    "C114_factors",
    "C114_compartments",
    "C114_refuted_unknown_flowable",
    "C114_refuted_half_padded",
    "C114_refuted_blank_name"
   ],
   "note": "Proved for flows whose names and links are not blank and are no CAS numbers, whose links are distinct, and whose CAS numbers are written without leading zeros or with six digits; the archive is fixed (static). Refuted: factors(flowable) of an unknown flowable yields every factor; compartments() ignores quantity and flowable; a half-padded CAS number used twice raises TermFound; a flow with a blank name absorbs every flow without CAS number."
  },
  {
   "property": "C115",
   "status": "partial",
   "theorems": [
    "C115_search",
    "C115_search_all",
    "C115_sound",
    "C115_order",
    "C115_narrows",
    "C115_index",
    "C115_lcia_methods",
    "C115_partial_id",
    "C115_refuted_upstream",
    "C115_refuted_upstream_witness",
    "C115_refuted_case",
    "C115_refuted_type_twice",
    "C115_refuted_number"
   ],
   "note": "Proved for all regular expressions (re.search is a parameter). Refuted: upstream=True never searches the upstream archive (the generator is dropped); property names must be spelled as stored although entities read them in any case; entity_type beside a type matches nothing; a numeric property raises TypeError."
  },
  {
   "property": "C116",
   "status": "partial",
   "theorems": [
    "C116_query_stages_partial",
    "C116_query_all_partial",
    "C116_refuted_query",
    "C116_waterfall",
    "C116_include_net_false_partial",
    "C116_span_partial",
    "C116_colours_partial",
    "C116_refuted_waterfall",
    "C116_posneg",
    "C116_posneg_layout",
    "C116_refuted_posneg",
    "C116_stack_bars",
    "C116_stack_extent"
   ],
   "note": "Bars, markers, spans and colours; texts and figure sizes are not modelled. Refuted: contrib_query divides by a zero total when the stages do not add up to it, and finds nothing without stages when entities are not their keys; include_net=False with a remainder raises IndexError; the span is computed before scales are unified; a colour faded for one result stays faded for the next; positive bars overlap for bar widths of 0.36 and more; private results raise KeyError."
  },
  {
   "property": "C117",
   "status": "partial",
   "theorems": [
    "C117_foreground",
    "C117_in_scc",
    "C117_matrices",
    "C117_lci_partial",
    "C117_lci_acyclic",
    "C117_dependencies_partial",
    "C117_emissions_partial",
    "C117_foreground_report_partial",
    "C117_refuted_inventory",
    "C117_refuted_sign",
    "C117_refuted_branches",
    "C117_refuted_treatment",
    "C117_refuted_history"
   ],
   "note": "Foreground and component queries hold after any calls; the reports and the inventory are proved for the first state of a manager, for output references, over exact rationals and an exact solver (Gaussian elimination is a witness). Refuted: inventory() of a background product with an emission always raises AttributeError; inventory() and dependencies() give an output of a negative amount; treatment processes get flipped signs; the answer depends on earlier questions."
  },
  {
   "property": "C118",
   "status": "partial",
   "theorems": [
    "C118_faithful",
    "C118_stable",
    "C118_load_all",
    "C118_loads",
    "C118_get",
    "C118_get_trimmed",
    "C118_order",
    "C118_idempotent",
    "C118_refuted_unit",
    "C118_refuted_same_name",
    "C118_refuted_second_dataset",
    "C118_refuted_collision",
    "C118_refuted_get",
    "C118_refuted_zero"
   ],
   "note": "Proved for every history on an archive created empty (not restored from JSON) over a zip file, exact rationals. Refuted: the unit of a flow depends on the load order; datasets sharing a name and further datasets of one file are dropped silently; a process named like a unit or a flow number stops load_all; get() of a file whose dataset has another name returns None; a commented zero-valued duplicate exchange makes a dataset unreadable."
  },
  {
   "property": "C119",
   "status": "partial",
   "theorems": [
    "C119_import_history",
    "C119_stable",
    "C119_load_all",
    "C119_flows",
    "C119_quantities",
    "C119_refuted_location",
    "C119_refuted_other_property",
    "C119_refuted_failed_import",
    "C119_refuted_truncated",
    "C119_refuted_zero",
    "C119_refuted_causal",
    "C119_refuted_same_name"
   ],
   "note": "Proved for every history on an archive created empty, exact rationals, distinct process names. Refuted: an exchange in another property than the reference property of its flow can never be imported; a failed import leaves a truncated process that later calls return; two processes of the same name share allocation quantities, so the second is left unallocated; factors of a product with zero amount fail, causal factors are ignored; a flow with a location loses its other properties."
  },
  {
   "property": "C120",
   "status": "partial",
   "theorems": [
    "C120_linked_partial",
    "C120_get_linked_partial",
    "C120_load_all_linked_partial",
    "C120_conflict_never",
    "C120_unlinked_partial",
    "C120_witness_linked",
    "C120_witness_unlinked",
    "C120_refuted_truncated",
    "C120_refuted_scores",
    "C120_refuted_index",
    "C120_refuted_cross",
    "C120_refuted_unit",
    "C120_refuted_phantom",
    "C120_refuted_unlinked",
    "C120_refuted_comment"
   ],
   "note": "Proved for every history, exact rationals; missing: references that were created by a call that failed, by load_all(exchanges=False) or by an activity with cross-listed products. Refuted there: a failed import leaves a truncated process that get returns; retrieve_lcia_scores first makes get return an empty process; after load_all without exchanges nothing fills the processes; a cross-listed product gives a result that depends on file order; amounts in a second unit are stored unconverted; get of an unknown id adds to count_by_type; unlinked processes may fail to load twice."
  },
  {
   "property": "C121",
   "status": "partial",
   "theorems": [
    "C121_processes",
    "C121_get_process",
    "C121_flows",
    "C121_flows_stable",
    "C121_units_partial",
    "C121_method",
    "C121_method_all",
    "C121_lcia",
    "C121_load_all",
    "C121_witness",
    "C121_refuted_order",
    "C121_refuted_directions",
    "C121_refuted_get_method",
    "C121_refuted_late_flow",
    "C121_refuted_unit_position",
    "C121_refuted_truncated",
    "C121_refuted_reference_value",
    "C121_refuted_missing_property",
    "C121_refuted_twice"
   ],
   "note": "Proved for every archive and history, exact rationals. Partial: the reference unit is right only where units are numbered by position (refuted otherwise). Also refuted: a worldwide factor after a regional one is lost; separate input and output factors are merged; a method fetched by get never gets its factors from load_lcia or load_all; flows fetched after load_lcia have none; a failed import leaves a truncated process that get returns; a reference property of value other than one makes processes unreadable; a missing property or unit group is dropped in silence."
  },
  {
   "property": "C122",
   "status": "partial",
   "theorems": [
    "C122_listed_partial",
    "C122_complete_partial",
    "C122_folders_hidden",
    "C122_missing",
    "C122_prefix_read",
    "C122_prefix_list_partial",
    "C122_in_prefix",
    "C122_remote_content",
    "C122_remote_cached",
    "C122_remote_fresh",
    "C122_remote_list",
    "C122_remote_directories",
    "C122_witness_zip",
    "C122_witness_remote",
    "C122_refuted_hidden",
    "C122_refuted_sibling",
    "C122_refuted_dot",
    "C122_refuted_7z",
    "C122_refuted_query",
    "C122_refuted_slash",
    "C122_refuted_file_folder",
    "C122_refuted_https"
   ],
   "note": "Partial: prefixes with siblings (library next to lib) and files named like a folder plus one character are excluded, and refuted: the first are listed but cannot be read, the second can be read but are not listed. Also refuted: a dot in in_prefix matches anything; stores that differ in the query string share cached files; an address without a final slash reads and caches the wrong file; a cached file blocks the files below its address; https raises."
  },
  {
   "property": "C123",
   "status": "partial",
   "theorems": [
    "C123_cas",
    "C123_cas_formatted",
    "C123_load_succeeds",
    "C123_loaded",
    "C123_sound",
    "C123_flows",
    "C123_no_stray_flows",
    "C123_factors",
    "C123_loaded_is_first",
    "C123_agree",
    "C123_flowables",
    "C123_compartments",
    "C123_same_answers",
    "C123_witness",
    "C123_refuted_long_cas",
    "C123_refuted_long_cas_query",
    "C123_refuted_unknown",
    "C123_refuted_history",
    "C123_refuted_same_name",
    "C123_refuted_cas_order"
   ],
   "note": "Proved for all sheets and histories where the quantity asked for is a method of the provider (or none). Refuted: ten-digit CAS numbers and empty CAS cells abort load_all for good, and ten-digit numbers are never found; an unknown quantity has no factors but all flowables and compartments; flows named in place of quantities give answers that depend on the history; a name in two rows gives factors that load_all does not keep and compartments of the first row only; the CAS number of a flow depends on the query order."
  },
  {
   "property": "C124",
   "status": "partial",
   "theorems": [
    "C124_succeeds",
    "C124_once",
    "C124_loaded",
    "C124_entities",
    "C124_failed",
    "C124_cases",
    "C124_sound",
    "C124_keys_partial",
    "C124_witness",
    "C124_refuted_issue",
    "C124_refuted_twice",
    "C124_refuted_unit",
    "C124_refuted_commas"
   ],
   "note": "Proved for all sheets and numbers of calls, with flows and methods identified by their joined keys, which C124_keys_partial shows to be injective without commas in the compartment columns. Refuted: a remark in Known issue is taken for the value and the rows from there on are never loaded; a row given twice makes load_all fail for ever; the unit of the first description counts for factors stated in another; flows that differ in where the comma is become one flow."
  },
  {
   "property": "C125",
   "status": "partial",
   "theorems": [
    "C125_new_reference",
    "C125_dated_reference",
    "C125_signifier",
    "C125_differs",
    "C125_days",
    "C125_lineage",
    "C125_succeeds",
    "C125_created",
    "C125_failed",
    "C125_no_overwrite",
    "C125_reopened",
    "C125_witness",
    "C125_refuted_third",
    "C125_refuted_third_overwrites",
    "C125_refuted_names",
    "C125_refuted_names_example",
    "C125_refuted_changed",
    "C125_refuted_from_file",
    "C125_refuted_from_file_example"
   ],
   "note": "Proved for all references and histories. Refuted: the third descendant of a day has the reference of the first, and with force replaces its file; a name that ends in six digits is taken for a date and lost, so different data sets get one reference; a signifier is checked only in its first character; failing late (invalid reference, slash, file registered elsewhere) leaves the archive with a source that does not exist; from_file can never read a descendant (SourceAlreadyKnown)."
  },
  {
   "property": "C126",
   "status": "partial",
   "theorems": [
    "C126_cases",
    "C126_succeeds",
    "C126_fails_again",
    "C126_units",
    "C126_flows",
    "C126_elementary",
    "C126_intermediate",
    "C126_no_more",
    "C126_processes",
    "C126_failed",
    "C126_keys_partial",
    "C126_witness",
    "C126_refuted_written",
    "C126_refuted_written_example",
    "C126_refuted_missing",
    "C126_refuted_unit",
    "C126_refuted_units",
    "C126_refuted_keys"
   ],
   "note": "Proved for all sheets and attempts, but for the last sentence, which is refuted: what is written (and read from the file) is the last row that gives the property, as LcEntity.update bypasses the case-insensitive keys. Also refuted: a product missing from the sheets ends the import for ever and leaves a process without exchanges; a product named like a unit becomes an exchange of a quantity; a second unit of a flow is dropped; elementary keys are different for different flows only if compartments have no brackets or commas."
  },
  {
   "property": "C127",
   "status": "partial",
   "theorems": [
    "C127_grid",
    "C127_totals",
    "C127_allocation_partial",
    "C127_witness",
    "C127_refuted_reference_value",
    "C127_refuted_counts",
    "C127_refuted_missing",
    "C127_refuted_suppliers",
    "C127_refuted_flow",
    "C127_refuted_short"
   ],
   "note": "Proved but for the last sentence, which is refuted: the column of a process as it is shows how many references there are (1), not their values; a process without valued non-reference exchanges is left out altogether; suppliers with one name are one line; the flow that a supplier delivers is not printed, so different inventories give one table; a line text of one character raises IndexError. C127_allocation_partial: for histories that do not change the value of a reference while allocated (as C24)."
  },
  {
   "property": "C128",
   "status": "partial",
   "theorems": [
    "C128_localized_source",
    "C128_moved_catalog_partial",
    "C128_refuted_neighbour",
    "C128_delete_resolver",
    "C128_delete_files",
    "C128_shared_source_kept_partial",
    "C128_external_kept",
    "C128_delete_witness",
    "C128_refuted_two_names",
    "C128_refuted_cache_left",
    "C128_refuted_no_source",
    "C128_index_stable",
    "C128_index_made",
    "C128_index_deleted",
    "C128_index_witness",
    "C128_refuted_forced",
    "C128_refuted_forced_today",
    "C128_refuted_not_stored",
    "C128_download_partial",
    "C128_refuted_digest",
    "C128_refuted_cut_short",
    "C128_foreground_once",
    "C128_foreground_witness"
   ],
   "note": "Refuted parts: a path beside the catalog whose text begins with its name moves with it; a file named in two ways is taken from the resource that stays; caches stay behind when the source is not a file; a resource without a source raises TypeError after its deletion; an index made anew by force is not the one found later (another day) or not the one the catalog answers with (same day); the index of a resource that is not stored cannot be deleted; a download with a wrong digest or cut short is kept and accepted the next time. The _partial theorems exclude these cases."
  },
  {
   "property": "C129",
   "status": "partial",
   "theorems": [
    "C129_letters",
    "C129_letters_fit",
    "C129_refuted_no_letter",
    "C129_first_line",
    "C129_keeps_asking",
    "C129_option_chosen_partial",
    "C129_refuted_digit_option",
    "C129_pick_list_partial",
    "C129_pick_by_number",
    "C129_refuted_negative",
    "C129_menu_list_partial",
    "C129_refuted_number_in_menu",
    "C129_words",
    "C129_refuted_not_offered",
    "C129_pairs",
    "C129_groups",
    "C129_refuted_groups",
    "C129_by_tag",
    "C129_down_a_hierarchy",
    "C129_descent_ends",
    "C129_select_subset_partial",
    "C129_one_of_them",
    "C129_every_one_partial",
    "C129_refuted_descent",
    "C129_refuted_tags",
    "C129_refuted_classifications",
    "C129_refuted_fragment",
    "C129_refuted_keep_all",
    "C129_numerals_witness",
    "C129_every_one_witness",
    "C129_reference",
    "C129_groups_by_number",
    "C129_words_first",
    "C129_item_or_text",
    "C129_reference_by_number",
    "C129_nothing_to_pick"
   ],
   "note": "Refuted parts: with more than 26 options there may be no menu (StopIteration); an option whose letter is a digit cannot be chosen; a negative number counts from the end or raises IndexError; a number in a menu without items raises TypeError; cyoa takes the empty line, any part of its words and any number; one key that cannot be compared makes one group of all; narrowing ends at the first level or tag all agree on, although they differ in later ones; KeyError when only some processes are classified and for fragments; keeping all types picks nothing. The _partial theorems exclude these cases."
  },
  {
   "property": "C130",
   "status": "partial",
   "theorems": [
    "C130_parts",
    "C130_one_part",
    "C130_at_stop",
    "C130_at_slash",
    "C130_at_open",
    "C130_list_parts_partial",
    "C130_refuted_leading_space",
    "C130_tags",
    "C130_fails",
    "C130_refuted_number",
    "C130_count",
    "C130_count_fails",
    "C130_refuted_same_tag",
    "C130_exchanges",
    "C130_parts_witness",
    "C130_delimiters_witness",
    "C130_count_witness"
   ],
   "note": "Partial: the parts of a list of texts are those of its texts only where these do not begin with white space (refuted otherwise); two properties can give the same tag; a number under any other key than the two excluded ones raises TypeError, also for entities outside the search."
  },
  {
   "property": "C131",
   "status": "partial",
   "theorems": [
    "C131_names",
    "C131_renders",
    "C131_plain",
    "C131_reference",
    "C131_determined",
    "C131_reference_witness",
    "C131_block_partial",
    "C131_value_partial",
    "C131_refuted_order",
    "C131_refuted_no_text",
    "C131_refuted_empty_variable"
   ],
   "note": "Partial: indices are compared as texts, so the tenth text comes before the second; a block without text elements raises AttributeError; a variable element without text is put in as None unless it is the only one."
  },
  {
   "property": "C132",
   "status": "proved",
   "theorems": [
    "C132_find_tags",
    "C132_find_tag",
    "C132_unknown_prefix",
    "C132_find_ns",
    "C132_no_ns",
    "C132_witness"
   ],
   "note": "Elements are specified by their paths of positions in the tree and the document order on paths."
  }
 ]
}