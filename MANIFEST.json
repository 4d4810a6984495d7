{
 "claims": [
  {
   "property": "C01",
   "status": "proved",
   "theorems": [
    "C01_print_then_read",
    "C01_print_then_read_only_if",
    "C01_reader_output_well_formed",
    "C01_read_print_read",
    "C01_print_injective",
    "C01_reader_drops_refuted",
    "C01_reader_merges_refuted"
   ],
   "note": "Exact characterisation: printing then reading is the identity iff all labels are well formed. _refuted theorems exhibit texts on which the reader loses or merges labels."
  },
  {
   "property": "C02",
   "status": "proved",
   "theorems": [
    "C02_subdomain_check",
    "C02_subdomain_check_any"
   ],
   "note": ""
  },
  {
   "property": "C03",
   "status": "proved",
   "theorems": [
    "C03_length_check_accepts",
    "C03_length_check_names_first_label",
    "C03_rejects_legal_length_refuted"
   ],
   "note": "Exact for the code's limit of 253; the _refuted theorem shows a legal 254-octet name is rejected."
  },
  {
   "property": "C04",
   "status": "proved",
   "theorems": [
    "C04_compare_partitions",
    "C04_no_difference_iff_equal_multisets"
   ],
   "note": ""
  },
  {
   "property": "C05",
   "status": "proved",
   "theorems": [
    "C05_type_name_read",
    "C05_type_name_printed",
    "C05_type_round_trip",
    "C05_type_set_printed",
    "C05_type_set_injective",
    "C05_unsupported_type_throws_refuted"
   ],
   "note": ""
  },
  {
   "property": "C06",
   "status": "proved",
   "theorems": [
    "C06_contents",
    "C06_contents_determined",
    "C06_insert",
    "C06_codes",
    "C06_node"
   ],
   "note": ""
  },
  {
   "property": "C07",
   "status": "proved",
   "theorems": [
    "C07_coexistence",
    "C07_ttl_duplicates_refuted"
   ],
   "note": ""
  },
  {
   "property": "C08",
   "status": "proved",
   "theorems": [
    "C08_label_threshold_invisible",
    "C08_zone_threshold_invisible"
   ],
   "note": "Zone part in Properties_Zone.v, label-graph part in Properties_Label.v."
  },
  {
   "property": "C09",
   "status": "proved",
   "theorems": [
    "C09_order_of_unrelated_records",
    "C09_swap",
    "C09_same_owner_order_matters_refuted"
   ],
   "note": ""
  },
  {
   "property": "C10",
   "status": "proved",
   "theorems": [
    "C10_lookup",
    "C10_referral",
    "C10_exact_one_type",
    "C10_nxdomain",
    "C10_dname"
   ],
   "note": ""
  },
  {
   "property": "C11",
   "status": "proved",
   "theorems": [
    "C11_answers_partition_types",
    "C11_no_type_no_answer_refuted",
    "C11_wildcard_cname_types_refuted"
   ],
   "note": "The statement's exceptions (wildcard CNAME labelled by the encloser's types, no type requested) are exhibited by _refuted theorems."
  },
  {
   "property": "C12",
   "status": "proved",
   "theorems": [
    "C12_answers_from_zone"
   ],
   "note": ""
  },
  {
   "property": "C13",
   "status": "proved",
   "theorems": [
    "C13_referral_glue"
   ],
   "note": ""
  },
  {
   "property": "C14",
   "status": "proved",
   "theorems": [
    "C14_files_stay_in_zone",
    "C14_origin",
    "C14_membership",
    "C14_root_zone_exits_refuted"
   ],
   "note": ""
  },
  {
   "property": "C15",
   "status": "proved",
   "theorems": [
    "C15_glue_lint"
   ],
   "note": ""
  },
  {
   "property": "C16",
   "status": "proved",
   "theorems": [
    "C16_class_query_is_concrete_query",
    "C16_existing_label_refuted"
   ],
   "note": ""
  },
  {
   "property": "C17",
   "status": "proved",
   "theorems": [
    "C17_no_out_of_range",
    "C17_unsupported_type_refuted"
   ],
   "note": "The _refuted theorem is the DS case: undefined behaviour."
  },
  {
   "property": "C18",
   "status": "proved",
   "theorems": [
    "C18_label_graph_contents"
   ],
   "note": ""
  },
  {
   "property": "C19",
   "status": "proved",
   "theorems": [
    "C19_closest_enclosers"
   ],
   "note": ""
  },
  {
   "property": "C20",
   "status": "proved",
   "theorems": [
    "C20_coverage",
    "C20_coverage_short_names",
    "C20_no_subdomains",
    "C20_classes_are_relevant",
    "C20_every_place_has_its_class",
    "C20_maximal_length_refuted",
    "C20_root_dname_refuted",
    "C20_exactly_the_classes"
   ],
   "note": "Producers run one after the other; other schedules: C66. C20_exactly_the_classes is the full description of the generated set."
  },
  {
   "property": "C21",
   "status": "proved",
   "theorems": [
    "C21_generation_total_and_bounded"
   ],
   "note": "Producers run one after the other; other schedules: C66 (C66_endless_recursion_refuted)."
  },
  {
   "property": "C22",
   "status": "proved",
   "theorems": [
    "C22_search_restores_marks",
    "C22_generation_restores_marks",
    "C22_history_of_searches"
   ],
   "note": "Producers run one after the other; other schedules: C66 (C66_marks_left_refuted)."
  },
  {
   "property": "C23",
   "status": "proved",
   "theorems": [
    "C23_terminates",
    "C23_unique"
   ],
   "note": ""
  },
  {
   "property": "C24",
   "status": "proved",
   "theorems": [
    "C24_edges_sound",
    "C24_vertices_sound"
   ],
   "note": ""
  },
  {
   "property": "C25",
   "status": "proved",
   "theorems": [
    "C25_complete",
    "C25_empty_server_name_refuted"
   ],
   "note": "Complete for configurations in which the length limits hold for the start name and server names and no server has the empty name ([plain]); the _refuted theorem shows what an empty server name does."
  },
  {
   "property": "C26",
   "status": "proved",
   "theorems": [
    "C26_vertices_distinct",
    "C26_class_equality"
   ],
   "note": ""
  },
  {
   "property": "C27",
   "status": "proved",
   "theorems": [
    "C27_answers",
    "C27_answers_general",
    "C27_answers_nonempty",
    "C27_unknown_top_server_refuted"
   ],
   "note": "C27_answers under [plain]; C27_answers_general without it; an unhosted top server is recorded as refusing (_refuted)."
  },
  {
   "property": "C28",
   "status": "proved",
   "theorems": [
    "C28_dname_rewrite",
    "C28_defined_iff"
   ],
   "note": ""
  },
  {
   "property": "C29",
   "status": "proved",
   "theorems": [
    "C29_most_specific_zone"
   ],
   "note": ""
  },
  {
   "property": "C30",
   "status": "proved",
   "theorems": [
    "C30_loop_check",
    "C30_loop_check_any_graph",
    "C30_loop_reported"
   ],
   "note": "check_for_loops in C30_loop_check; the reported violation in C30_loop_reported."
  },
  {
   "property": "C31",
   "status": "proved",
   "theorems": [
    "C31_paths",
    "C31_paths_any_graph"
   ],
   "note": "The walker emits an alias end before it cuts loops, so its last vertex may repeat: part of [resolution]."
  },
  {
   "property": "C32",
   "status": "proved",
   "theorems": [
    "C32_hops",
    "C32_negative_bound_refuted"
   ],
   "note": "Needs fewer than 2^62 vertices (size_t arithmetic). C32_negative_bound_refuted: negative bounds are silently ignored."
  },
  {
   "property": "C33",
   "status": "proved",
   "theorems": [
    "C33_rewrites"
   ],
   "note": ""
  },
  {
   "property": "C34",
   "status": "proved",
   "theorems": [
    "C34_query_rewrite"
   ],
   "note": ""
  },
  {
   "property": "C35",
   "status": "proved",
   "theorems": [
    "C35_name_server_contact",
    "C35_domains_text"
   ],
   "note": ""
  },
  {
   "property": "C36",
   "status": "proved",
   "theorems": [
    "C36_blackholing",
    "C36_reported_iff"
   ],
   "note": ""
  },
  {
   "property": "C37",
   "status": "proved",
   "theorems": [
    "C37_lame_delegation",
    "C37_unhosted_server_refuted"
   ],
   "note": "C37_unhosted_server_refuted: a delegation to a server without any zone (NSNOTFOUND) is not reported."
  },
  {
   "property": "C38",
   "status": "proved",
   "theorems": [
    "C38_delegation_consistency",
    "C38_wildcard_cname_refuted"
   ],
   "note": "C38_wildcard_cname_refuted: a wildcard CNAME below the apex gives a spurious NS violation."
  },
  {
   "property": "C39",
   "status": "proved",
   "theorems": [
    "C39_response_returned",
    "C39_sound"
   ],
   "note": "C39_response_returned is exact for existing classes; C39_sound covers nonexistent ones."
  },
  {
   "property": "C40",
   "status": "proved",
   "theorems": [
    "C40_response_value",
    "C40_alias_refuted",
    "C40_glue_refuted"
   ],
   "note": "_refuted theorems: an alias end is compared although only its target carries the value; addresses of name servers count as values."
  },
  {
   "property": "C41",
   "status": "proved",
   "theorems": [
    "C41_response_consistency",
    "C41_single_server_refuted"
   ],
   "note": "C41_single_server_refuted: an alias is compared with its own target when CNAME is among the types."
  },
  {
   "property": "C42",
   "status": "proved",
   "theorems": [
    "C42_zero_ttl"
   ],
   "note": ""
  },
  {
   "property": "C43",
   "status": "proved",
   "theorems": [
    "C43_aliases"
   ],
   "note": ""
  },
  {
   "property": "C44",
   "status": "proved",
   "theorems": [
    "C44_infinite_dname",
    "C44_first_repeated_use"
   ],
   "note": "C44_first_repeated_use gives the exact report: first_reuse and uses_listed in Spec_Props.v; the order of RRsUsed is unspecified in the code (unordered_map), so the list is characterised up to order."
  },
  {
   "property": "C45",
   "status": "proved",
   "theorems": [
    "C45_dname_length"
   ],
   "note": ""
  },
  {
   "property": "C46",
   "status": "proved",
   "theorems": [
    "C46_structural_check",
    "C46_reported_iff",
    "C46_same_servers_no_report_refuted",
    "C46_missing_child_reported_refuted"
   ],
   "note": "check_structural on every loaded configuration; the pairs, their order and the text of the entries; the JSON text itself is C50/C51."
  },
  {
   "property": "C47",
   "status": "proved",
   "theorems": [
    "C47_no_loss",
    "C47_job_result",
    "C47_order_irrelevant"
   ],
   "note": "Transition system at the granularity of one queue operation or atomic access; the concurrent queue is modelled as a multiset whose try_dequeue may fail spuriously unless the caller saw the end flag; C++ memory model effects are outside the model. The tasks are assumed to process without throwing."
  },
  {
   "property": "C48",
   "status": "proved",
   "theorems": [
    "C48_no_deadlock",
    "C48_fair_runs_end",
    "C48_can_always_finish"
   ],
   "note": "Same model as C47; processing of a task is assumed to terminate (C23)."
  },
  {
   "property": "C49",
   "status": "proved",
   "theorems": [
    "C49_settings",
    "C49_independent_of_history",
    "C49_accepted",
    "C49_independence_refuted"
   ],
   "note": "The unrestricted claim is false: C49_independence_refuted (check_structural_delegations is never reset)."
  },
  {
   "property": "C50",
   "status": "proved",
   "theorems": [
    "C50_lint_file",
    "C50_read_back",
    "C50_issues_are_objects"
   ],
   "note": "nlohmann::json::dump(4) is modelled from its documentation; dump output is proved to conform to the RFC 8259 grammar in Spec_Json.v."
  },
  {
   "property": "C51",
   "status": "proved",
   "theorems": [
    "C51_file",
    "C51_read_back",
    "C51_different_reports",
    "C51_file_written_iff",
    "C51_reports_of_all_jobs",
    "C51_reports_of_one_job",
    "C51_whole_run",
    "C51_output_lost_refuted"
   ],
   "note": "C51_output_lost_refuted: a non-UTF-8 byte in a zone file makes dump throw and the whole output is lost. The order of std::set<json> is not modelled."
  },
  {
   "property": "C52",
   "status": "proved",
   "theorems": [
    "C52_grouped",
    "C52_described"
   ],
   "note": "unordered_map order of the canonical names is not modelled (insertion order)."
  },
  {
   "property": "C53",
   "status": "proved",
   "theorems": [
    "C53_tokens",
    "C53_written_tokens_are_read",
    "C53_ignored_bytes"
   ],
   "note": ""
  },
  {
   "property": "C54",
   "status": "proved",
   "theorems": [
    "C54_zone_file",
    "C54_owner",
    "C54_owner_spelled_like_a_type_refuted",
    "C54_at_sign_as_target_refuted",
    "C54_last_line_without_line_break_refuted",
    "C54_relative_origin_directive_refuted",
    "C54_blank_owner_after_unknown_type_refuted",
    "C54_txt_keeps_its_case_refuted",
    "C54_origin_without_final_dot_refuted"
   ],
   "note": ""
  },
  {
   "property": "C55",
   "status": "proved",
   "theorems": [
    "C55_ttl_and_class",
    "C55_one_reading",
    "C55_default_is_the_last_stated_ttl_refuted",
    "C55_ttl_directive_zero_refuted",
    "C55_ttl_with_unit_refuted",
    "C55_empty_directive_refuted"
   ],
   "note": ""
  },
  {
   "property": "C56",
   "status": "proved",
   "theorems": [
    "C56_only_lines_matter",
    "C56_comments",
    "C56_line_breaks_in_parentheses",
    "C56_parentheses_in_one_line",
    "C56_rest_of_the_file_refuted"
   ],
   "note": ""
  },
  {
   "property": "C57",
   "status": "proved",
   "theorems": [
    "C57_metadata",
    "C57_checked_first"
   ],
   "note": "Here the metadata is given by the fields the code reads; arbitrary JSON documents are treated in C64."
  },
  {
   "property": "C60",
   "status": "proved",
   "theorems": [
    "C60_member_resolves_like_class",
    "C60_same_graph",
    "C60_same_loops_and_paths",
    "C60_same_reports",
    "C60_no_clash_from_records",
    "C60_covered_names",
    "C60_every_name_is_tested",
    "C60_chained_dname_refuted",
    "C60_long_member_refuted"
   ],
   "note": "C60_every_name_is_tested puts coverage (C20), resolution (C24/C25) and the checks together for configurations loaded from files. Checks that look at query names (QueryRewrite, DelegationConsistency, LameDelegation, InfiniteDName, Aliases) are outside the same-reports theorem. Two _refuted theorems: chained DNAMEs hide records from the class; a member that a DNAME makes too long."
  },
  {
   "property": "C61",
   "status": "proved",
   "theorems": [
    "C61_check_completes"
   ],
   "note": ""
  },
  {
   "property": "C62",
   "status": "proved",
   "theorems": [
    "C62_loaded",
    "C62_understood_files_load",
    "C62_ready",
    "C62_every_zone_file_loads_refuted",
    "C62_zone_with_blank_soa_owner_refuted"
   ],
   "note": ""
  },
  {
   "property": "C63",
   "status": "proved",
   "theorems": [
    "C63_jobs_complete",
    "C63_program_completes",
    "C63_every_accepted_input_refuted"
   ],
   "note": "The depth bound of the model's recursion (fuel) is existential: every large enough depth gives the same result. C63_every_accepted_input_refuted: a job with an empty Types list reads the first of no answers; a zone whose SOA has a blank owner makes the structural check throw. Class producers run one after the other; for their schedules see C66."
  },
  {
   "property": "C64",
   "status": "proved",
   "theorems": [
    "C64_metadata_unambiguous",
    "C64_metadata_read",
    "C64_metadata_only",
    "C64_metadata_check_safe",
    "C64_job_read",
    "C64_job_only",
    "C64_job_safe",
    "C64_program",
    "C64_missing_key_refuted",
    "C64_large_bound_refuted",
    "C64_unknown_property_refuted"
   ],
   "note": "The document is the parsed JSON value (Model_Input.v); parsing the text is not modelled. Three _refuted theorems state what the reading code does not check: missing keys of a job (undefined), bounds beyond 32 bits (taken modulo 2^32), misspelt property names (ignored)."
  },
  {
   "property": "C65",
   "status": "proved",
   "theorems": [
    "C65_usable_inputs",
    "C65_rejected_metadata",
    "C65_output_only_after_all",
    "C65_zero_means_output_refuted"
   ],
   "note": "C65_zero_means_output_refuted: any exception in the main thread is printed and the process still returns 0 without complete output. A partially written output file (dump throwing in the middle) is not distinguished from no output."
  },
  {
   "property": "C66",
   "status": "proved",
   "theorems": [
    "C66_one_thread",
    "C66_every_schedule",
    "C66_marks_restored",
    "C66_no_dname_below",
    "C66_coverage",
    "C66_lost_class_refuted",
    "C66_marks_left_refuted",
    "C66_endless_recursion_refuted"
   ],
   "note": "Accesses to the shared field are modelled as sequentially consistent atomic steps; in C++ they are a data race. Three _refuted theorems give complete schedules on graphs loaded from records."
  },
  {
   "property": "C67",
   "status": "proved",
   "theorems": [
    "C67_paths_are_traces",
    "C67_hops",
    "C67_rewrites",
    "C67_query_rewrite",
    "C67_name_server_contact",
    "C67_blackholing",
    "C67_lame_delegation",
    "C67_delegation_consistency",
    "C67_aliases",
    "C67_dname_length",
    "C67_response_returned",
    "C67_response_value",
    "C67_response_consistency",
    "C67_zero_ttl",
    "C67_infinite_dname",
    "C67_loop"
   ],
   "note": "Texts of queries inside a trace are given up to the list of excluded labels (text_of): a query reached in two ways keeps the list of the first. The reports are those of C32-C45, restated over traces; hypothesis 'inspected' asks that the check of the query finished (always the case by C61/C63)."
  },
  {
   "property": "C68",
   "status": "proved",
   "theorems": [
    "C68_faults_are_reported",
    "C68_reports_are_faults",
    "C68_name_fault_shows_in_class",
    "C68_class_fault_shows_in_names",
    "C68_marks_do_not_matter"
   ],
   "note": "Side conditions of the class-to-name direction are spelled out per check in Spec_Fault.v (seen_in_class, seen_in_members); without them a name that some CNAME/NS record points to can be asked twice where its class is asked once. InfiniteDName is not transferred from classes to names (a name can overflow the length limit instead); the direction that matters for missing nothing (names to classes) covers it."
  },
  {
   "property": "C69",
   "status": "proved",
   "theorems": [
    "C69_no_fault_goes_unreported",
    "C69_clean_output"
   ],
   "note": "Composition of C20 (coverage), C60/C68 (a name shows what its class shows) and C51 (all violations are reported). The report may be about the class (~{ }.n) instead of x. Names for which a wildcard applies that the label graph does not show next to them are outside (vouched in Spec_Clean.v): their class is asked for all types instead of the job's."
  },
  {
   "property": "C70",
   "status": "proved",
   "theorems": [
    "C70_one_job",
    "C70_fair_schedules_end",
    "C70_output",
    "C70_runs_exist",
    "C70_calm",
    "C70_clean_output",
    "C70_report_lost_refuted",
    "C70_later_job_refuted"
   ],
   "note": "Composition of C66 (producers) and C47/C48 (other threads) in one machine (Model_System.v). C70_clean_output restates C69 for every schedule. C70_report_lost_refuted gives a configuration, read from a zone file, and a schedule under which a report is lost. Sequentially consistent memory is assumed, as in C66."
  },
  {
   "property": "C71",
   "status": "proved",
   "theorems": [
    "C71_aliases_in_output",
    "C71_objects_describe",
    "C71_objects_tell_apart",
    "C71_lint_objects",
    "C71_findings_in_output",
    "C71_nothing_else",
    "C71_output_is_justified",
    "C71_faults_are_in_output",
    "C71_hops",
    "C71_file"
   ],
   "note": "The contents of each kind of object are specified in Spec_Report.v (says), with members of objects up to order. C71_objects_describe: the object of a finding says it. C71_findings_in_output / C71_nothing_else: reports = findings of the classes. C71_output_is_justified / C71_faults_are_in_output: compose with C68 for a completed run. C71_hops: the same for one check, end to end and self-contained. C71_file: what a JSON reader of the file gets."
  },
  {
   "property": "C72",
   "status": "proved",
   "theorems": [
    "C72_same_classes",
    "C72_only_if_asked"
   ],
   "note": "Used by C71 to state classes without mentioning the structural setting."
  },
  {
   "property": "C73",
   "status": "proved",
   "theorems": [
    "C73_same_as_jobs_file",
    "C73_same_as_job",
    "C73_no_jobs",
    "C73_default_output",
    "C73_query_rewrite_idle"
   ],
   "note": "C73_same_as_jobs_file is an equality of the whole program, so every theorem about jobs (C51, C64, C65, C69-C71) applies to the run without a jobs file. C73_default_output states the result for the checks with exact reports."
  },
  {
   "property": "C74",
   "status": "proved",
   "theorems": [
    "C74_lint_issues",
    "C74_reasons",
    "C74_configuration",
    "C74_no_lint",
    "C74_line_numbers",
    "C74_line_numbers_quoted_refuted"
   ],
   "note": "says_each/numbered (Spec_Lint.v) extend the reading of C54 by line numbers; left_out is the list of reasons; C74_reasons shows that it is complete and unambiguous; C74_configuration is about all files; C71_lint_objects connects the list to the lint file."
  },
  {
   "property": "C75",
   "status": "proved",
   "theorems": [
    "C75_counts",
    "C75_configuration"
   ],
   "note": "counted (Spec_Lint.v) counts per record; the statistics are only logged by the program."
  },
  {
   "property": "C76",
   "status": "proved",
   "theorems": [
    "C76_job_statistics",
    "C76_run_statistics",
    "C76_each_class_once",
    "C76_number_of_classes",
    "C76_summary",
    "C76_summary_order",
    "C76_each_class_once_refuted"
   ],
   "note": "Spec_Stats.v: class_count, graph_sizes, job_classes. C76_each_class_once and C76_number_of_classes need the absence of DNAME records; C76_each_class_once_refuted shows why. The median, which boost estimates, is not modelled."
  },
  {
   "property": "C77",
   "status": "proved",
   "theorems": [
    "C77_strict_order",
    "C77_ascending",
    "C77_parts_in_order",
    "C77_properties_together",
    "C77_every_property_stated",
    "C77_same_file_under_every_schedule",
    "C77_job_order_irrelevant",
    "C77_job_order_refuted"
   ],
   "note": "Spec_Order.v: before (the order, written without the model), ascending, part. The order of the entries inside an alias report comes from an unordered_map and is not specified, so the text is only claimed equal when no job asks for AllAliases; C70 covers that case up to this order."
  },
  {
   "property": "C78",
   "status": "proved",
   "theorems": [
    "C78_finished",
    "C78_other_files",
    "C78_not_finished",
    "C78_lint_broken",
    "C78_same_ending",
    "C78_earlier_contents",
    "C78_finished_from",
    "C78_stale_output_refuted",
    "C78_same_file"
   ],
   "note": "Model_Files.v: main_disk. Opening and writing files is assumed to succeed; nlohmann's parser is a parameter. Issues written before SetContext stops are modelled (issues_before_stop; C85 says which they are). C78_same_ending ties the result to main_program (C64, C65), C78_finished_from to groot (C51)."
  },
  {
   "property": "C79",
   "status": "proved",
   "theorems": [
    "C79_loads",
    "C79_same_classes",
    "C79_same_results",
    "C79_same_output",
    "C79_same_file",
    "C79_same_findings",
    "C79_same_aliases",
    "C79_needs_one_zone_refuted",
    "C79_structural_refuted"
   ],
   "note": "ordinary_names: no label \".\" (names with doubled dots) and no DNAME at the root, as in C20. Spec_Perm.v: serves, one_zone_per_origin, query_class. The order in which two processes would read the files is not modelled: files are read one after the other, as in the code."
  },
  {
   "property": "C80",
   "status": "proved",
   "theorems": [
    "C80_classes_below",
    "C80_findings_below",
    "C80_classes_split"
   ],
   "note": "Unknown names are excluded: their class is that of the longest known part, asked for the types of the job, while a job for a domain above asks it for all types (F28). Names of 253 octets without subdomains are excluded (F10)."
  },
  {
   "property": "C81",
   "status": "proved",
   "theorems": [
    "C81_each_property_alone",
    "C81_split",
    "C81_types_interact_refuted"
   ],
   "note": "Structural findings are left out (they do not depend on the types; F21)."
  },
  {
   "property": "C82",
   "status": "proved",
   "theorems": [
    "C82_same_results",
    "C82_findings_kept",
    "C82_same_findings",
    "C82_subdomains_refuted"
   ],
   "note": "No two zones of one origin on a consulted server (C79 shows why); no DS records; for findings_kept the additional files bring no new wildcard."
  },
  {
   "property": "C83",
   "status": "proved",
   "theorems": [
    "C83_zone_file",
    "C83_same_run",
    "C83_directives_refuted",
    "C83_values_refuted",
    "C83_types_refuted"
   ],
   "note": "File names, property names and type names of the jobs are kept the same."
  },
  {
   "property": "C84",
   "status": "proved",
   "theorems": [
    "C84_structural",
    "C84_structural_named_domain_refuted",
    "C84_rewrites",
    "C84_lame_delegation",
    "C84_delegation_consistency",
    "C84_query_rewrite",
    "C84_name_server_contact",
    "C84_blackholing",
    "C84_infinite_dname",
    "C84_dname_length",
    "C84_aliases",
    "C84_response_returned",
    "C84_response_value",
    "C84_response_consistency",
    "C84_zero_ttl",
    "C84_loops"
   ],
   "note": "Hypotheses: completed_run (files read, jobs usable, run ended, names within limits); the structural theorem needs each zone to have one SOA owner and no '.' label or DNAME at the root. C84_structural_named_domain_refuted: under a DNAME the report names the alias."
  },
  {
   "property": "C85",
   "status": "proved",
   "theorems": [
    "C85_file",
    "C85_stop",
    "C85_ending"
   ],
   "note": "Proved in the direction: reading stops -> such a line. For DS records it is a necessary condition only (a DS record inside the zone and without conflict does not stop the program). The five kinds each occur (C85_kinds). The output file on a stop: C78."
  },
  {
   "property": "C86",
   "status": "proved",
   "theorems": [
    "C86_answer_depends_on",
    "C86_edit_elsewhere",
    "C86_results",
    "C86_unmentioned",
    "C86_one_file",
    "C86_same_findings",
    "C86_wildcard_refuted",
    "C86_new_parent_refuted",
    "C86_glue_refuted"
   ],
   "note": "Proved for the context (C86_results) and for the loaded files (C86_one_file, C86_same_findings; the metadata lists the edited file once, no DS records as in C62, the zone keeps its name). C86_same_findings is about jobs without subdomains, since new names are new classes, and says nothing of the structural check. That the three conditions on an edit are needed: C86_wildcard_refuted, C86_new_parent_refuted, C86_glue_refuted."
  },
  {
   "property": "C87",
   "status": "proved",
   "theorems": [
    "C87_union",
    "C87_completes",
    "C87_switched_on",
    "C87_more_jobs",
    "C87_overlong_domain"
   ],
   "note": "Unconditional (any fuel, any loaded state): C87_union and C87_completes characterise the reports of a list of jobs by single-job runs, C87_switched_on what the inherited structural check adds. C87_overlong_domain is about the whole program (groot), lint file included."
  },
  {
   "property": "C88",
   "status": "proved",
   "theorems": [
    "C88_read",
    "C88_refused",
    "C88_one_document",
    "C88_one_value",
    "C88_blanks",
    "C88_member_order",
    "C88_last_member",
    "C88_rest_ignored",
    "C88_finished",
    "C88_bad_metadata",
    "C88_bad_jobs",
    "C88_same_documents",
    "C88_read_back",
    "C88_output_readable",
    "C88_invalid_file_refuted"
   ],
   "note": "C88_read is an equivalence between the reader and a grammar written independently (Spec_Reader: strings with all escapes and surrogate pairs, UTF-8, numbers, arrays, objects). The reader is nlohmann's lexer and non-strict parser, rewritten as recursive functions; numbers with a fraction or exponent keep their exact decimal value instead of the nearest double (only the whole part is used by groot). C88_invalid_file_refuted is the false stronger claim."
  },
  {
   "property": "C89",
   "status": "proved",
   "theorems": [
    "C89_ending",
    "C89_later_jobs_irrelevant",
    "C89_reports_lost",
    "C89_good_jobs_reported_refuted"
   ],
   "note": "Continues C85 (which is about loading). Unfinished, i.e. a bound of the model's recursion, is a separate outcome; C63 shows when it does not occur. C89_good_jobs_reported_refuted is the false stronger claim; C89_ex_crash a whole run that crashes."
  },
  {
   "property": "C90",
   "status": "proved",
   "theorems": [
    "C90_class_types",
    "C90_on_the_way",
    "C90_missing_types",
    "C90_other_types_refuted",
    "C90_other_property_refuted"
   ],
   "note": "C90_other_types_refuted and C90_other_property_refuted are the two ways in which a report can be about a type that a property (or the whole job) did not ask for; see F28, F36."
  },
  {
   "property": "C91",
   "status": "proved",
   "theorems": [
    "C91_hops",
    "C91_rewrites",
    "C91_other_reports",
    "C91_wider_rewrites",
    "C91_wider_contacts",
    "C91_negative_bound_refuted"
   ],
   "note": "C91_wider_rewrites states the direction from the new run to the old one; which of the old reports stay follows from C34 (those whose target is still outside). In C91_wider_contacts the old list is assumed to be the only one in the job file that is written the way it is (otherwise other properties cite the same text)."
  }
 ]
}