{
"C01": "Exact characterisation: printing then reading is the identity iff all labels are well formed. _refuted theorems exhibit texts on which the reader loses or merges labels.",
"C03": "Exact for the code's limit of 253; the _refuted theorem shows a legal 254-octet name is rejected.",
"C08": "Zone part in Properties_Zone.v, label-graph part in Properties_Label.v.",
"C11": "The statement's exceptions (wildcard CNAME labelled by the encloser's types, no type requested) are exhibited by _refuted theorems.",
"C17": "The _refuted theorem is the DS case: undefined behaviour.",
"C20": "Producers run one after the other; other schedules: C66. C20_exactly_the_classes is the full description of the generated set.",
"C21": "Producers run one after the other; other schedules: C66 (C66_endless_recursion_refuted).",
"C22": "Producers run one after the other; other schedules: C66 (C66_marks_left_refuted).",
"C25": "Complete for configurations in which the length limits hold for the start name and server names and no server has the empty name ([plain]); the _refuted theorem shows what an empty server name does.",
"C27": "C27_answers under [plain]; C27_answers_general without it; an unhosted top server is recorded as refusing (_refuted).",
"C30": "check_for_loops in C30_loop_check; the reported violation in C30_loop_reported.",
"C31": "The walker emits an alias end before it cuts loops, so its last vertex may repeat: part of [resolution].",
"C32": "Needs fewer than 2^62 vertices (size_t arithmetic). C32_negative_bound_refuted: negative bounds are silently ignored.",
"C37": "C37_unhosted_server_refuted: a delegation to a server without any zone (NSNOTFOUND) is not reported.",
"C38": "C38_wildcard_cname_refuted: a wildcard CNAME below the apex gives a spurious NS violation.",
"C39": "C39_response_returned is exact for existing classes; C39_sound covers nonexistent ones.",
"C40": "_refuted theorems: an alias end is compared although only its target carries the value; addresses of name servers count as values.",
"C41": "C41_single_server_refuted: an alias is compared with its own target when CNAME is among the types.",
"C44": "C44_first_repeated_use gives the exact report: first_reuse and uses_listed in Spec_Props.v; the order of RRsUsed is unspecified in the code (unordered_map), so the list is characterised up to order.",
"C46": "check_structural on every loaded configuration; the pairs, their order and the text of the entries; the JSON text itself is C50/C51.",
"C47": "Transition system at the granularity of one queue operation or atomic access; the concurrent queue is modelled as a multiset whose try_dequeue may fail spuriously unless the caller saw the end flag; C++ memory model effects are outside the model. The tasks are assumed to process without throwing.",
"C48": "Same model as C47; processing of a task is assumed to terminate (C23).",
"C49": "The unrestricted claim is false: C49_independence_refuted (check_structural_delegations is never reset).",
"C50": "nlohmann::json::dump(4) is modelled from its documentation; dump output is proved to conform to the RFC 8259 grammar in Spec_Json.v.",
"C51": "C51_output_lost_refuted: a non-UTF-8 byte in a zone file makes dump throw and the whole output is lost. The order of std::set<json> is not modelled.",
"C52": "unordered_map order of the canonical names is not modelled (insertion order).",
"C57": "Here the metadata is given by the fields the code reads; arbitrary JSON documents are treated in C64.",
"C60": "C60_every_name_is_tested puts coverage (C20), resolution (C24/C25) and the checks together for configurations loaded from files. Checks that look at query names (QueryRewrite, DelegationConsistency, LameDelegation, InfiniteDName, Aliases) are outside the same-reports theorem. Two _refuted theorems: chained DNAMEs hide records from the class; a member that a DNAME makes too long.",
"C63": "The depth bound of the model's recursion (fuel) is existential: every large enough depth gives the same result. C63_every_accepted_input_refuted: a job with an empty Types list reads the first of no answers; a zone whose SOA has a blank owner makes the structural check throw. Class producers run one after the other; for their schedules see C66.",
"C64": "The document is the parsed JSON value (Model_Input.v); parsing the text is not modelled. Three _refuted theorems state what the reading code does not check: missing keys of a job (undefined), bounds beyond 32 bits (taken modulo 2^32), misspelt property names (ignored).",
"C65": "C65_zero_means_output_refuted: any exception in the main thread is printed and the process still returns 0 without complete output. A partially written output file (dump throwing in the middle) is not distinguished from no output.",
"C66": "Accesses to the shared field are modelled as sequentially consistent atomic steps; in C++ they are a data race. Three _refuted theorems give complete schedules on graphs loaded from records.",
"C67": "Texts of queries inside a trace are given up to the list of excluded labels (text_of): a query reached in two ways keeps the list of the first. The reports are those of C32-C45, restated over traces; hypothesis 'inspected' asks that the check of the query finished (always the case by C61/C63).",
"C68": "Side conditions of the class-to-name direction are spelled out per check in Spec_Fault.v (seen_in_class, seen_in_members); without them a name that some CNAME/NS record points to can be asked twice where its class is asked once. InfiniteDName is not transferred from classes to names (a name can overflow the length limit instead); the direction that matters for missing nothing (names to classes) covers it.",
"C69": "Composition of C20 (coverage), C60/C68 (a name shows what its class shows) and C51 (all violations are reported). The report may be about the class (~{ }.n) instead of x. Names for which a wildcard applies that the label graph does not show next to them are outside (vouched in Spec_Clean.v): their class is asked for all types instead of the job's.",
"C70": "Composition of C66 (producers) and C47/C48 (other threads) in one machine (Model_System.v). C70_clean_output restates C69 for every schedule. C70_report_lost_refuted gives a configuration, read from a zone file, and a schedule under which a report is lost. Sequentially consistent memory is assumed, as in C66.",
"C71": "The contents of each kind of object are specified in Spec_Report.v (says), with members of objects up to order. C71_objects_describe: the object of a finding says it. C71_findings_in_output / C71_nothing_else: reports = findings of the classes. C71_output_is_justified / C71_faults_are_in_output: compose with C68 for a completed run. C71_hops: the same for one check, end to end and self-contained. C71_file: what a JSON reader of the file gets.",
"C72": "Used by C71 to state classes without mentioning the structural setting.",
"C73": "C73_same_as_jobs_file is an equality of the whole program, so every theorem about jobs (C51, C64, C65, C69-C71) applies to the run without a jobs file. C73_default_output states the result for the checks with exact reports.",
"C74": "says_each/numbered (Spec_Lint.v) extend the reading of C54 by line numbers; left_out is the list of reasons; C74_reasons shows that it is complete and unambiguous; C74_configuration is about all files; C71_lint_objects connects the list to the lint file.",
"C75": "counted (Spec_Lint.v) counts per record; the statistics are only logged by the program.",
"C76": "Spec_Stats.v: class_count, graph_sizes, job_classes. C76_each_class_once and C76_number_of_classes need the absence of DNAME records; C76_each_class_once_refuted shows why. The median, which boost estimates, is not modelled.",
"C77": "Spec_Order.v: before (the order, written without the model), ascending, part. The order of the entries inside an alias report comes from an unordered_map and is not specified, so the text is only claimed equal when no job asks for AllAliases; C70 covers that case up to this order.",
"C78": "Model_Files.v: main_disk. Opening and writing files is assumed to succeed; nlohmann's parser is a parameter. Issues written before SetContext stops are modelled (issues_before_stop; C85 says which they are). C78_same_ending ties the result to main_program (C64, C65), C78_finished_from to groot (C51).",
"C79": "ordinary_names: no label \".\" (names with doubled dots) and no DNAME at the root, as in C20. Spec_Perm.v: serves, one_zone_per_origin, query_class. The order in which two processes would read the files is not modelled: files are read one after the other, as in the code.",
"C80": "Unknown names are excluded: their class is that of the longest known part, asked for the types of the job, while a job for a domain above asks it for all types (F28). Names of 253 octets without subdomains are excluded (F10).",
"C81": "Structural findings are left out (they do not depend on the types; F21).",
"C82": "No two zones of one origin on a consulted server (C79 shows why); no DS records; for findings_kept the additional files bring no new wildcard.",
"C83": "File names, property names and type names of the jobs are kept the same.",
"C84": "Hypotheses: completed_run (files read, jobs usable, run ended, names within limits); the structural theorem needs each zone to have one SOA owner and no '.' label or DNAME at the root. C84_structural_named_domain_refuted: under a DNAME the report names the alias.",
"C85": "Proved in the direction: reading stops -> such a line. For DS records it is a necessary condition only (a DS record inside the zone and without conflict does not stop the program). The five kinds each occur (C85_kinds). The output file on a stop: C78.",
"C86": "Proved for the context (C86_results) and for the loaded files (C86_one_file, C86_same_findings; the metadata lists the edited file once, no DS records as in C62, the zone keeps its name). C86_same_findings is about jobs without subdomains, since new names are new classes, and says nothing of the structural check. That the three conditions on an edit are needed: C86_wildcard_refuted, C86_new_parent_refuted, C86_glue_refuted.",
"C87": "Unconditional (any fuel, any loaded state): C87_union and C87_completes characterise the reports of a list of jobs by single-job runs, C87_switched_on what the inherited structural check adds. C87_overlong_domain is about the whole program (groot), lint file included.",
"C88": "C88_read is an equivalence between the reader and a grammar written independently (Spec_Reader: strings with all escapes and surrogate pairs, UTF-8, numbers, arrays, objects). The reader is nlohmann's lexer and non-strict parser, rewritten as recursive functions; numbers with a fraction or exponent keep their exact decimal value instead of the nearest double (only the whole part is used by groot). C88_invalid_file_refuted is the false stronger claim.",
"C89": "Continues C85 (which is about loading). Unfinished, i.e. a bound of the model's recursion, is a separate outcome; C63 shows when it does not occur. C89_good_jobs_reported_refuted is the false stronger claim; C89_ex_crash a whole run that crashes.",
"C90": "C90_other_types_refuted and C90_other_property_refuted are the two ways in which a report can be about a type that a property (or the whole job) did not ask for; see F28, F36.",
"C91": "C91_wider_rewrites states the direction from the new run to the old one; which of the old reports stay follows from C34 (those whose target is still outside). In C91_wider_contacts the old list is assumed to be the only one in the job file that is written the way it is (otherwise other properties cite the same text)."
}