# Formal model of dns-groot/groot in Rocq (Coq 8.16.1)

## 1. Layout

| file | content |
|---|---|
| `rocq/theories/Base.v` | outcome type `res` (Ok / Undef = undefined behaviour / Exit / Throw / OutOfFuel), labels, names, types, bitsets, records, equivalence classes, answers |
| `Model_Utils.v` | `src/utils.cpp`, `src/resource-record.cpp`, `src/equivalence-class.cpp` |
| `Model_Zone.v` | `src/zone-graph.{h,cpp}` |
| `Model_Label.v` | `src/label-graph.{h,cpp}`: construction, closest enclosers, EC generation |
| `Model_Produce.v` | the producer threads of `GenerateECs` as an interleaving machine |
| `Model_System.v` | all threads of one job in one machine, and the jobs in sequence |
| `Model_Stats.v` | the statistics of the jobs: `src/job.h`, `Driver::WriteStatsForAJob`, total in `bin/groot.cpp` |
| `Model_Interp.v` | `src/interpretation-graph.cpp`: graph construction, loop check, path enumeration |
| `Model_Props.v` | `src/properties.cpp`, `src/ec-task.cpp` |
| `Model_Struct.v` | structural delegation check in `src/label-graph.cpp`, `src/structural-task.cpp` |
| `Model_Lexer.v`, `Model_Parser.v` | `src/zone-file-parser.cpp` |
| `Model_Driver.v` | `src/driver.cpp`, `src/job.h`: metadata, jobs, threads as a transition system |
| `Model_Json.v` | the json values of the reports and `nlohmann::json::dump(4)` |
| `Model_Input.v` | the metadata and jobs documents as JSON values, the nlohmann accessors, how the process ends |
| `Model_Reader.v` | nlohmann's `operator>>`: the texts of metadata.json and jobs.json |
| `Model_Files.v` | command line options, the contents of the output file and lint.json after every ending |
| `Model_Main.v` | report set, output file, lint file, `bin/groot.cpp` main |
| `Spec_*.v` | small independent specifications |
| `Proofs_*.v` | lemmas |
| `Properties_*.v` | only the property theorems (`exact lemma`), non-vacuity `Example`s and `Print Assumptions` |
| `Tests_*.v` | conformance tests by `vm_compute` (tests, not proofs): the expectations of the repository's own unit/integration tests |

Every definition of a `Model_*` file carries the file and lines it models.
Anything the C++ standard leaves undefined, `exit()` and exceptions are distinct outcomes.

## 2. What is modelled, what is not

Modelled: everything listed above, at the level of values.  Graphs of
`boost::adjacency_list<vecS, vecS, directedS>` are vertex lists plus an edge
list in insertion order.

Simplifications (each repeated in the comment of the definition):

* `NodeLabel` interning (`boost::flyweight`) is identified with the string
  itself.
* Logging, progress and the dot dumps are dropped (of the statistics only the median is).
* The contents of metadata.json and jobs.json are JSON values (`Model_Input.doc`);
  `Model_Reader.read_json` models how nlohmann reads them from the texts (C88;
  real numbers are exact decimals instead of the nearest doubles).
  `Model_Driver` works on records of the fields the code reads; C64 proves the
  two agree for every document.
* Files: a function from path to content.  The code joins the zone directory and
  `FileName` with `boost::filesystem` before it opens the file and before it
  writes `File Name` into the lint file; in the model `FileName` stands for the
  joined path.
* `boost::spirit::lex` is modelled as longest match / first rule over the same
  regular expressions.
* The threads started by `GenerateECs` (one per encloser) are run one after the
  other in `generate_ecs`.  In the code they share the scratch field `len`
  without synchronisation; `Model_Produce` interleaves them access by access
  (sequentially consistent) and C66 says when the order does not matter.  The
  threads of `Driver::GenerateECsAndCheckProperties` are modelled as a
  transition system with all interleavings.
* `unordered_map` iteration order is not modelled where it shows (entries of an alias
  report, RRsUsed of the
  infinite-DNAME report, glue lint order between zones).
* Memory exhaustion, stack depth, I/O failures are not modelled.

## 3. Trusted base

* Coq 8.16.1 kernel (and `vm_compute`), `coqchk`.
* The reading of the C++ code by the author of the model: the code was not run.
* No axioms: every property theorem is followed by `Print Assumptions`, which
  must print "Closed under the global context".  See section 6 for the list.

## 4. Plan per property

| id | modelled functions | proof |
|---|---|---|
| C01 | labels_to_string, string_to_labels | induction on the string with the loop state generalised |
| C02 | sub_domain_check(_any) | induction; spec: exists suffix |
| C03 | length_check | induction on labels with accumulator |
| C04 | compare_rrs | induction; spec by counting modulo record equality |
| C05 | string_to_type, type_to_string, types_to_string | finite enumeration lifted to all wf sets + sorting lemma |
| C06 | add_rr, find_node | representation invariant of the tree by induction over histories |
| C07 | add_rr | invariant over histories |
| C08 | find_child maps vs scan | simulation between thresholds |
| C09 | add_rr, zone_lookup | corollary of C10: lookup is a function of the flat record list per name |
| C10 | zone_lookup | refinement to a spec over the flat list of accepted records |
| C11 | zone_lookup | case analysis on C10 spec, bitset algebra |
| C12 | zone_lookup | invariant |
| C13 | add_glue, match_ns_glue | induction |
| C14 | check_zone_membership, parser | invariant over parser states |
| C15 | check_glue | tree traversal covers all nodes |
| C16 | zone_lookup | corollary of C10 |
| C17 | zone_lookup | no Undef under DS-free hypothesis; refutation with DS |
| C18 | ladd_rr | invariant over histories |
| C19 | search_node | reach relation, DFS completeness |
| C20 | generate_ecs | DFS completeness by length |
| C21 | sub_ecs | measure |
| C22 | search_node, sub_ecs | mark restoration |
| C23 | query_resolver | finite universe of (server, query) |
| C24-27 | query_resolver | relational invariant over the construction |
| C28 | process_dname | induction |
| C29 | relevant_zone | fold invariant |
| C30 | check_for_loops | DFS soundness/completeness |
| C31 | end_nodes_and_paths | DFS |
| C32-C45 | the property functions | each against an English-level predicate over the path/graph |
| C46 | check_structural | loop invariant (parents of maximal origin), pairwise comparison against C04 |
| C47,C48 | cstep | inductive invariants over the transition system; progress measure |
| C49 | set_job | equational |
| C50-C52 | lint_file, violations_file, json_consume | induction; the grammar is unambiguous (Proofs_Json2) |
| C53 | lex | derivative correctness, totality |
| C54-C56 | parse_token(s), finish_record | simulation |
| C57 | metadata_sanity | equational |
| C60 | zone_lookup, query_resolver, process_ec, generate_ecs on a loaded configuration | the class and a member are bisimilar: simulation of every builder step by `for_member` (Proofs_Class, Proofs_Class2), checks over the mapped graph (Proofs_Class3); coverage from C20 plus invariance of "no such label" along DNAMEs |
| C61 | process_ec | totality from the individual totality lemmas |
| C62 | set_context, parse_zone_file | invariant over files and lines (Proofs_Parser*, Proofs_Loaded) |
| C63 | groot, run_jobs, run_job | composition: C62 (loaded), C61 (each class), totality of the structural check, settings of usable jobs |
| C64 | metadata_sanity_doc, set_context_doc, set_job_doc, main_program | a relation `says_*` between documents and contents (Spec_Input), both directions of its agreement with the reading functions |
| C65 | main_program, exit_status | C63 and C64 composed; dump is Ok or Throw by induction on json |
| C66 | tstep, prun | a thread alone refines sub_ecs; noninterference: two runs that agree on the marks a thread compares; counting steps |
| C67 | build_igraph, end_nodes_and_paths, all checks | vertices stand for contacts: paths and traces correspond both ways (Proofs_Trace), each report translated (Proofs_Trace2) |
| C68 | same as C67 | Spec_Fault.v says what each check looks for; report = fault from C67; name = class by mapping traces pointwise both ways (Proofs_Member), excluded list and mark irrelevant (Proofs_Same) |
| C69 | run_jobs, run_job, generate_ecs, process_ec on a loaded configuration | composition: the class of a name (C20), faults of a name are faults of its class (C68), more types hide no fault where no wildcard applies (Proofs_Retype), classes' reports reach the output (C51) |
| C70 | all threads of a job in one machine (`Model_System.jstep`), jobs in sequence (`jobs_ran`) | invariant: what producers have pushed so far could have been pending from the start (`csteps_grow`), so C66 and C47/C48 compose; measure for the producers, then fairness of the rest |
| C71 | to_json, lint_json, glue_json, alias_report, run_jobs, groot | Spec_Report.v says what each object should contain; shape invariant of findings (`wellformed`); composition with C51, C67, C68 |
| C72 | generate_ecs, sub_ecs with both values of the structural flag | simulation: same marks, same classes (`generate_flag`) |
| C73 | set_job_default, run_jobs, groot, main_program | the default job equals the job of an explicit document (computation), then C71 and C67 |
| C74 | parse_token, add_parsed, add_lint, parse_zone_file, set_context | the reading of C54 with line numbers; each record is stored or left out for exactly one reason (insertion codes of C06, length check of C03); induction over the tokens |
| C75 | count_inc, count_add, add_parsed, parse_zone_file, set_context | the same induction, counting under each heading |
| C76 | stats_end, summary, jobs_logged, total_ecs (Model_Stats.v), generate_ecs, run_job | the tasks processed are a permutation of those generated (C70); without DNAME the recursion of generate_ecs visits each known name once (induction, subtrees of different children are disjoint) |
| C77 | json_compare (nlohmann operator<), report_insert (std::set<json>), violations_file, run_jobs, jobs_ran | json_compare is a total order equal to `before` (nested induction on JSON values); report_insert keeps lists ascending; two ascending lists with the same members are equal, so membership results (C51, C70) become equality of files |
| C78 | main_disk: options, lint.json opened first and closed last, issue_write, reports_write with the text that has gone out when dump throws | three ways to end (main_cases); a text that becomes a JSON document when something is added after it is none itself (from the unambiguity of the grammar), so unclosed arrays are no JSON; agreement with main_program by cases |
| C79 | set_context, get_relevant_zone, generate_ecs | zone ids are renamed by a permutation of the files: a file is read to the same zone and records whatever was read before (fresh label state), so both configurations have the same (server, zone) pairs; relevant zone is the longest origin, unique by hypothesis; build and checks depend on a context only through `alike`; classes by the exact description of the generated set (C20_exactly_the_classes), which only mentions known names and links; equal report sets are equal files by C77 |
| C80 | generate_ecs, run_jobs | from the exact description of the classes (C20_exactly_the_classes): prefixes of known names are known and within the limits; outputs by C71 |
| C81 | process_ec, check_properties_on_ec, set_job | concatM over checks is Ok iff each part is and has the union of the parts; job_class depends on a job only through domain, flag and types; outputs by C71 |
| C82 | build_igraph, set_context, groot | two contexts that agree on a set of servers closed under NS records: every step of the resolver gives the same graph (by induction on the recursion, with the old vertices unchanged); the label graph only grows, so classes of known names stay |
| C83 | tokenize, parse_tokens, set_context, set_job, groot | the character sets of the token rules contain no letter, so derivatives agree and tokens correspond; the parser commutes with lower-casing the words of its state; then the driver functions |
| C84 | groot, run_jobs, set_job, process_ec, generate_ecs, check_structural, json_consume | composition: C71 (what is in the output) with C67 (what each check says of the traces) and a characterisation of the settings made by each JSON entry; the places of the structural check by induction on the walk over the label graph (`place_iff`) |
| C85 | lex, parse_token, parse_zone_file, set_context_doc, loading, main_disk | induction on the tokens: the first token that fails is a newline, the tokens before are those of the text before (longest match is stable under cutting the text after it), an invariant ties the parser state to the lines read; then induction on the files |
| C86 | zone_lookup, query_resolver, process_ec, set_context, run_jobs | the declarative answer (C10) read as a function of what it looks at; then a simulation of the two resolvers that holds as long as the graph stays inside the final graph of the first, whose vertices are resolutions (C24); loading: the list of zones is a function of the files' own contents |
| C87 | run_jobs, set_job, groot | the settings of a job depend on the earlier ones only through the structural switch; the reports of a list are the union over the list with the switch threaded through; a switched job generates the same classes (C72), so its other findings are the same list |
| C88 | read_json (Model_Reader), main_disk read_json | reader = grammar: completeness by mutual induction on the derivations with fuel 2 * length + 1, soundness by induction on the fuel; numbers by their first and following characters, objects by sorted insertion; then C78 instantiated with this reader |
| C89 | jobs_end, main_program, main_disk | the loop over the jobs as a fold: induction on the elements, each read (C64) and run or the first that is not; set_job fails exactly for unknown types |
| C90 | generate_ecs, follow (steps), response_returned | induction on the class generation and on the trace; the reports by C71 and C39 |
| C91 | number_of_hops, number_of_rewrites, query_rewrite, name_server_contact, run_jobs | two completed runs: same classes and graphs; the reports by C67, C34, C35 and C71 |

## 5. Findings

Behaviours of the code that the proofs forced into the open.  Where a theorem
is named, it is a machine-checked counterexample to the natural reading of the
claim; the others follow from the definitions cited.

*Names and records*
* F1  Reading a name drops empty labels and merges "a..b" with "a.b" (`C01_reader_*_refuted`).
* F2  The length check rejects some names of legal wire length (`C03_rejects_legal_length_refuted`).
* F3  Printing a record of an unsupported type throws `out_of_range` (`C05_unsupported_type_throws_refuted`), and
  so does a duplicate DS record while parsing (`C62_every_zone_file_loads_refuted`); a zone lookup that meets one reads out of range (`C17_unsupported_type_refuted`).
* F4  Records that differ only in TTL count as different (`C07_ttl_duplicates_refuted`, `C46_same_servers_no_report_refuted`).

*Zones*
* F5  Which of two conflicting records (CNAME and other data) is kept depends on the order (`C09_same_owner_order_matters_refuted`).
* F6  A query with no types gets no answer although the callers read the first answer: `C11_no_type_no_answer_refuted`, `C63_every_accepted_input_refuted`.
* F7  A wildcard CNAME answers with the requested types instead of all (`C11_wildcard_cname_types_refuted`).
* F8  A root zone with more than one record makes the program exit (`C14_root_zone_exits_refuted`).

*Label graph and classes*
* F9  The threads of `GenerateECs` share the scratch field `len` of each vertex without synchronisation: a class can be lost, a mark can stay behind and mislead later jobs, the recursion can be endless (`C66_lost_class_refuted`, `C66_marks_left_refuted`, `C66_endless_recursion_refuted`).
* F10 Names of maximal length, and names below a DNAME at the root, are not covered by any class (`C20_*_refuted`).
* F11 Chained DNAMEs hide records from the classes; a member can be too long where its class is not (`C60_*_refuted`).
* F12 The list of closest enclosers can contain the same node several times; its classes are then generated several times; a DNAME also makes the class of unknown names below its owner appear once per target (`C76_each_class_once_refuted`).

*Resolution graph and checks*
* F13 Equality of queries ignores the contents of the excluded-label set; after a CNAME or DNAME the set is dropped.
* F14 An empty or unknown server name ends a branch silently (`C25_empty_server_name_refuted`, `C27_unknown_top_server_refuted`).
* F15 A negative bound for hops or rewrites is never reported: the comparison is done on unsigned numbers (`C32_negative_bound_refuted`, `C91_negative_bound_refuted`).
* F16 Lame delegation: reported only for the original query name, and not for servers the configuration does not know (`C37_unhosted_server_refuted`).
* F17 The answer of a wildcard alias below an apex is taken for the child's NS records by the delegation check (`C38_wildcard_cname_refuted`).
* F18 Response value: the alias itself is compared with the expected values, and the addresses of name servers count as values of the name (`C40_*_refuted`); if the root is an end node there is no answer to read.
* F19 Response consistency does not restrict itself to the types asked for, and a single server with an alias is reported as inconsistent with itself (`C41_single_server_refuted`); ZeroTTL does not filter by type; the infinite-DNAME check also counts CNAMEs.
* F20 Parallel edges give the same path, and so the same report, several times.

*Driver, files*
* F21 The structural check stays on for later jobs (`C49_independence_refuted`).
* F22 One byte that is not UTF-8 loses the whole output (`C51_output_lost_refuted`).
* F23 Zone-file syntax that is read differently from RFC 1035: `C54_*_refuted`, `C55_*_refuted`, `C56_*_refuted`.
* F24 A zone whose SOA has a blank owner is dropped, but the label graph still points at it; the structural check then throws (`C62_zone_with_blank_soa_owner_refuted`, `C63_every_accepted_input_refuted`).
* F25 The structural check reports nothing for a delegation whose child zone is not loaded (`C46_missing_child_reported_refuted`).
* F26 An exception in `main` is logged and the program ends with exit code 0, leaving the lint file unclosed.
* F27 The output can depend on the schedule: when two producers meet below a DNAME target, classes and their reports can be missing (`C70_report_lost_refuted`), and marks left behind disturb later jobs (`C66_marks_left_refuted`, `C70_later_job_refuted`: a later job without any race of its own loses a report).
* F28 The classes of names without records below an existing name are asked for all record types, not for those of the job: reports can be about types the job did not ask for (`C90_class_types`, `C90_other_types_refuted`).
* F29 A job whose domain is too long is skipped with no message and no report (`C87_overlong_domain`).
* F30 The default job checks that queries are rewritten only within `.`, which is always so: that check can report nothing (`C73_query_rewrite_idle`).
* F31 Line breaks inside a quoted string are not counted, so the line numbers in the lint file are too small after it (`C74_line_numbers_quoted_refuted`).
* F32 After an exception in `main` or `exit`, the status may be 0 and the output file still holds an earlier run's reports (`C78_stale_output_refuted`); `lint.json` is left without its closing bracket (`C78_lint_broken`).
* F33 `--lint --output=lint.json` always leaves a file that is no JSON (`C78_same_file`).
* F34 if the metadata list two zones of the same origin for one server, the one listed first answers and the other is silently ignored: the output depends on the order of the files (`C79_needs_one_zone_refuted`).
* F35 the structural check lists pairs of servers, and calls one side `a` and the other `b`, in the order of the zone files in the metadata (`C79_structural_refuted`).
* F36 All properties of a job are checked for the union of the record types its properties ask for: a property can report something only because another one asks for another type (`C81_types_interact_refuted`).
* F37 `$ORIGIN`, `$TTL` and `$INCLUDE` are recognised in capitals only; in small letters the line is silently dropped (`C83_directives_refuted`).
* F38 Record data is stored in small letters but the values of ResponseValue are compared as written: a value copied from the zone file (TXT text with a capital) is reported as a difference (`C83_values_refuted`).  A type name of a job in small letters ends the run with an exception (`C83_types_refuted`).
* F39 Names that only unreachable servers have are known names to the class generator, so a job with subdomains reports on them (`C82_subdomains_refuted`).
* F40 For a domain that is reached through a DNAME the structural check compares the records of the DNAME target but reports them under the alias, a domain nobody delegates (`C84_structural_named_domain_refuted`).
* F41 Only the first JSON value of metadata.json and of the jobs file is read; whatever follows is ignored without a message, e.g. a second list of jobs (`C88_rest_ignored`, `C88_invalid_file_refuted`).
* F42 One job that cannot be read loses the reports of all jobs, and the process still returns 0 (`C89_good_jobs_reported_refuted`).

## 6. Print Assumptions

Every theorem of MANIFEST.json is followed by `Print Assumptions` in its file;
each prints "Closed under the global context".  No axiom of the standard library
is used by any theorem.  (`coqchk -o` lists the module-type fields of
`Coq.ssr.ssrunder`, which `Lia` loads; nothing depends on them.)
