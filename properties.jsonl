{"id": "C01", "title": "Domain names survive printing and re-reading", "statement": "Converting a domain name (list of labels) to its dotted string and converting that string back yields the same labels, provided every label is a well-formed label (non-empty, dots escaped by a backslash, not ending in a backslash). For other strings the reader may drop or merge labels; the exact deviations are stated.", "quantifier": "all lists of labels / all strings", "why_tests_cant": "The set of names is infinite and the escape rule interacts with every label position", "anchors": ["src/utils.cpp:LabelsToString", "src/utils.cpp:StringToLabels"]}
{"id": "C02", "title": "Subdomain test is exactly the ancestor relation", "statement": "SubDomainCheck(d, s) answers true iff s is d or a descendant of d; the multi-domain form answers true iff some allowed domain is an ancestor-or-self of s.", "quantifier": "all pairs of names, all lists of allowed domains", "why_tests_cant": "Infinite input space", "anchors": ["src/utils.cpp:SubDomainCheck"]}
{"id": "C03", "title": "Length check accepts exactly the names within the limits and names the first offending label", "statement": "LengthCheck accepts iff every label has at most 63 bytes and the sum of (length+1) over the labels is at most 253; when it rejects because of a label it returns the first such label.", "quantifier": "all names", "why_tests_cant": "Infinite input space, boundary values at every label count", "anchors": ["src/utils.cpp:LengthCheck"]}
{"id": "C04", "title": "Record comparison is an exact multiset split", "statement": "Comparing two record lists returns (common, only-in-A, only-in-B) that partition both inputs up to record equality (TTL ignored): every record occurs min/excess times, and the order of leftovers is kept.", "quantifier": "all pairs of record lists, with duplicates", "why_tests_cant": "In-place erase during iteration; duplicates and order matter for all lists", "anchors": ["src/utils.cpp:CompareRRs"]}
{"id": "C05", "title": "Record type names and type-set printing are faithful", "statement": "Every supported type name maps to a type that prints back to the same name; unsupported names map to the 'none' type; the printed set of types contains exactly the set's names, once each, alphabetically sorted, separated by blanks, and distinct sets print differently.", "quantifier": "all strings, all type sets", "why_tests_cant": "Ranges over all strings and all 2^13 type sets", "anchors": ["src/utils.cpp:StringToType", "src/utils.cpp:TypeToString", "src/utils.cpp:TypesToString"]}
{"id": "C06", "title": "A zone stores exactly the accepted records", "statement": "After any sequence of record insertions the records a zone holds at a name are exactly the accepted records with that owner name, in insertion order; inserting one record does not change what is stored at any other name; rejected records leave the zone unchanged.", "quantifier": "all histories of record insertions, all names", "why_tests_cant": "All histories", "anchors": ["src/zone-graph.cpp:AddResourceRecord", "src/zone-graph.cpp:AddNodes"]}
{"id": "C07", "title": "CNAME/DNAME coexistence rules hold in every reachable zone", "statement": "In any zone built through the API, a name carrying a CNAME carries no other record type, and has one CNAME only; at most one DNAME per name; no two records at a name are identical in type, data and TTL.", "quantifier": "all histories of record insertions", "why_tests_cant": "All histories; order-dependent checks", "anchors": ["src/zone-graph.cpp:AddResourceRecord"]}
{"id": "C08", "title": "Child-index threshold is invisible", "statement": "Every observable result of building and querying a zone (and the label graph) is independent of when nodes switch from a linear child scan to a hash map.", "quantifier": "all histories, all thresholds", "why_tests_cant": "Threshold is 500: tests never cross it and all crossing points matter", "anchors": ["src/zone-graph.cpp:AddNodes", "src/zone-graph.cpp:GetAncestor", "src/label-graph.cpp:AddNodes", "src/label-graph.cpp:GetAncestor"]}
{"id": "C09", "title": "Zone contents do not depend on the order of unrelated records", "statement": "Two insertion histories that agree, name by name, on the sub-history of records yield zones that answer every query identically.", "quantifier": "all pairs of histories, all queries", "why_tests_cant": "All permutations of histories", "anchors": ["src/zone-graph.cpp:AddResourceRecord", "src/zone-graph.cpp:QueryLookUpAtZone"]}
{"id": "C10", "title": "Zone lookup implements the DNS answer algorithm", "statement": "QueryLookUpAtZone gives exactly the answer that a specification over the flat set of stored records gives: referral at the highest delegation below the origin, exact answers, CNAME/DNAME rewriting, wildcard synthesis at the closest encloser, NODATA or NXDOMAIN.", "quantifier": "all zones reachable by insertion, all queries", "why_tests_cant": "All zones and queries", "anchors": ["src/zone-graph.cpp:QueryLookUpAtZone", "src/zone-graph.cpp:GetClosestEncloser", "src/zone-graph.cpp:WildcardMatch"]}
{"id": "C11", "title": "Every query type gets exactly one answer", "statement": "For a query with at least one type, the answers partition the queried types: the type sets of the answers are disjoint and their union is the requested set (or a rewrite/referral answer covers all remaining types); the answer list is never empty.", "quantifier": "all zones, all queries", "why_tests_cant": "All type subsets and all zones", "anchors": ["src/zone-graph.cpp:QueryLookUpAtZone"]}
{"id": "C12", "title": "Answers never invent records", "statement": "Every record returned by a zone lookup is a record previously accepted into that zone (record, owner, type, TTL and data unchanged).", "quantifier": "all histories, all queries", "why_tests_cant": "All histories", "anchors": ["src/zone-graph.cpp:QueryLookUpAtZone", "src/zone-graph.cpp:AddGlueRecords", "src/zone-graph.cpp:LookUpGlueRecords"]}
{"id": "C13", "title": "Referrals carry NS records with exactly the matching glue", "statement": "A referral answer lists the delegation's NS records and for each NS target inside the zone exactly the A/AAAA records stored at the target; grouping NS and glue afterwards recovers each NS name with its own glue.", "quantifier": "all zones and delegations", "why_tests_cant": "All zones", "anchors": ["src/zone-graph.cpp:AddGlueRecords", "src/interpretation-graph.cpp:MatchNsGlueRecords"]}
{"id": "C14", "title": "Out-of-zone records are rejected", "statement": "A record is accepted as member of a zone iff its owner is at or below the zone's origin; a record elsewhere never enters the zone, and no zone loaded from files holds one.", "quantifier": "all origins and records", "why_tests_cant": "Infinite input space", "anchors": ["src/zone-graph.cpp:CheckZoneMembership", "src/zone-file-parser.cpp:ParseZoneFileAndExtendGraphs"]}
{"id": "C15", "title": "Missing glue is reported exactly when glue is missing", "statement": "The glue lint reports an NS record iff its target lies inside the zone, glue is required for it and the zone stores no A or AAAA record for the target.", "quantifier": "all zones", "why_tests_cant": "All zones", "anchors": ["src/zone-graph.cpp:CheckGlueRecordsPresence", "src/zone-graph.cpp:RequireGlueRecords"]}
{"id": "C16", "title": "An 'everything else' query stands for every concrete name it excludes labels for", "statement": "The answer to a query for '~{..}.n' equals (up to the query name written in the answer) the answer for any concrete name l.rest below n whose next label l is not a child of n in the zone.", "quantifier": "all zones, all names, all non-child labels", "why_tests_cant": "Infinitely many concrete names per class", "anchors": ["src/zone-graph.cpp:QueryLookUpAtZone", "src/zone-graph.cpp:GetClosestEncloser"]}
{"id": "C17", "title": "Zone lookups never read out of range", "statement": "If a zone holds no record of an unsupported type and the query requests at least one type, lookup performs no out-of-range bitset or vector access; with an unsupported type (DS) it does.", "quantifier": "all zones, all queries", "why_tests_cant": "Undefined behaviour is invisible to tests", "anchors": ["src/zone-graph.cpp:GetNodeRRTypes", "src/zone-graph.cpp:QueryLookUpAtZone", "src/resource-record.cpp:toString"]}
{"id": "C18", "title": "The label graph contains every owner name and every DNAME link", "statement": "After any history of insertions, each record's owner name is a path of the label graph, annotated with the record's type and zone; each DNAME owner has a link to its target; nothing else is annotated.", "quantifier": "all histories of insertions", "why_tests_cant": "All histories", "anchors": ["src/label-graph.cpp:AddResourceRecord", "src/label-graph.cpp:AddNodes"]}
{"id": "C19", "title": "Closest-enclosure search finds exactly the deepest matching nodes", "statement": "The closest enclosers of a name are exactly the label-graph nodes reachable by consuming the longest possible prefix of the name, following DNAME links freely, and the search terminates on cyclic graphs.", "quantifier": "all label graphs, all names", "why_tests_cant": "DNAME cycles make the graph cyclic", "anchors": ["src/label-graph.cpp:ClosestEnclosers", "src/label-graph.cpp:SearchNode"]}
{"id": "C20", "title": "Equivalence classes cover the query space", "statement": "For each query domain, each concrete name below it that fits the length limits belongs to one of the generated classes; and the generated classes are exactly: the class of the longest known part of the domain if not all of it is known; the domain itself without subdomains; with subdomains, each known name below it together with the class of the unknown names below each place it leads to.", "quantifier": "all label graphs, all concrete names", "why_tests_cant": "Infinitely many concrete names", "anchors": ["src/label-graph.cpp:GenerateECs", "src/label-graph.cpp:SubDomainECGeneration"]}
{"id": "C21", "title": "Equivalence-class generation terminates and respects the length limits", "statement": "EC generation stops on every label graph, including DNAME cycles, and every generated class name fits the DNS length limits.", "quantifier": "all label graphs", "why_tests_cant": "Termination", "anchors": ["src/label-graph.cpp:SubDomainECGeneration", "src/label-graph.cpp:GenerateECs"]}
{"id": "C22", "title": "Search leaves no marks behind", "statement": "After a search or an EC generation every node's scratch mark is back to its initial value, so the next search on the same graph gives the same result as on a fresh graph.", "quantifier": "all graphs, all sequences of searches", "why_tests_cant": "All histories", "anchors": ["src/label-graph.cpp:SearchNode", "src/label-graph.cpp:SubDomainECGeneration"]}
{"id": "C23", "title": "Building the interpretation graph terminates", "statement": "For every configuration of zones and name servers and every query, building the interpretation graph terminates, even with CNAME/DNAME/delegation loops.", "quantifier": "all configurations, all queries", "why_tests_cant": "Termination on all inputs", "anchors": ["src/interpretation-graph.cpp:QueryResolver", "src/interpretation-graph.cpp:InsertNode"]}
{"id": "C24", "title": "Every interpretation-graph edge is a real resolution step", "statement": "Every edge of the graph connects (server, query) to a (server, query) that a resolver following the server's answer would contact next.", "quantifier": "all configurations, all queries", "why_tests_cant": "All configurations", "anchors": ["src/interpretation-graph.cpp:QueryResolver", "src/interpretation-graph.cpp:NsSubRoutine", "src/interpretation-graph.cpp:StartFromTopNameservers"]}
{"id": "C25", "title": "Every resolution step is in the interpretation graph", "statement": "Each (server, query) pair reachable by resolver steps from the top name servers is a vertex of the graph.", "quantifier": "all configurations, all queries", "why_tests_cant": "All configurations", "anchors": ["src/interpretation-graph.cpp:QueryResolver", "src/interpretation-graph.cpp:InsertNode"]}
{"id": "C26", "title": "No two vertices of the interpretation graph are the same (server, query)", "statement": "Vertices are pairwise different as (server, query class) pairs.", "quantifier": "all configurations", "why_tests_cant": "All configurations", "anchors": ["src/interpretation-graph.cpp:InsertNode"]}
{"id": "C27", "title": "Each vertex carries the answer of its server", "statement": "Each vertex with a named server carries the answer of the most specific zone of that server for its query, REFUSED if the server has none, or NSNOTFOUND for unknown servers; it is never left without an answer.", "quantifier": "all configurations", "why_tests_cant": "All configurations", "anchors": ["src/interpretation-graph.cpp:QueryResolver", "src/interpretation-graph.cpp:GetRelevantZone"]}
{"id": "C28", "title": "DNAME rewriting is correct", "statement": "A DNAME rewrite replaces exactly the owner suffix of the query by the target, keeps the rest, and never aborts the process.", "quantifier": "all zones and queries", "why_tests_cant": "All names", "anchors": ["src/interpretation-graph.cpp:ProcessDname"]}
{"id": "C29", "title": "The most specific zone is selected", "statement": "Among the zones hosted by a server, the one whose origin is the longest ancestor-or-self of the query is used; none iff no origin is an ancestor.", "quantifier": "all lists of zones and queries", "why_tests_cant": "All zone lists", "anchors": ["src/interpretation-graph.cpp:GetRelevantZone"]}
{"id": "C30", "title": "Loop check reports iff a cycle is reachable", "statement": "Checking a class reports a cyclic dependency iff some (server, query) reached from the start of its resolution depends on itself, by the next contact or by the address query it waits for; what is reported is such a cycle.", "quantifier": "all configurations (zones, servers, top servers), all query classes, all job settings", "why_tests_cant": "All graphs", "anchors": ["src/interpretation-graph.cpp:CheckForLoops"]}
{"id": "C31", "title": "Path enumeration visits every path", "statement": "The path walker terminates and hands to the checks exactly the resolutions: walks from the start that end at a last contact without repeating a contact, or at an alias that answers a CNAME question.", "quantifier": "all configurations (zones, servers, top servers), all query classes, all job settings", "why_tests_cant": "All graphs", "anchors": ["src/interpretation-graph.cpp:EnumeratePathsAndReturnEndNodes"]}
{"id": "C32", "title": "Hop-count check is exact", "statement": "A Hops violation (query, n, b) is reported iff the job has bound b >= 0 and some resolution contacts n > b servers, consecutive contacts of the same server counting once. A negative bound, though exceeded by everything, never reports.", "quantifier": "all configurations (zones, servers, top servers), all query classes, all job settings", "why_tests_cant": "The check walks every path of a graph built from arbitrary zone data; no finite set of configurations covers it.", "anchors": ["src/properties.cpp:NumberOfHops"]}
{"id": "C33", "title": "Rewrite-count check is exact", "statement": "A Rewrites violation (query, n, b) is reported iff the job has bound b and some resolution has n > b rewriting steps.", "quantifier": "all configurations (zones, servers, top servers), all query classes, all job settings", "why_tests_cant": "The check walks every path of a graph built from arbitrary zone data; no finite set of configurations covers it.", "anchors": ["src/properties.cpp:NumberOfRewrites"]}
{"id": "C34", "title": "Query-rewrite check is exact", "statement": "A Query Rewrite violation is reported iff on some resolution a rewriting step leads to a query outside the allowed domains; it names both queries, the server and the domains.", "quantifier": "all configurations (zones, servers, top servers), all query classes, all job settings", "why_tests_cant": "The check walks every path of a graph built from arbitrary zone data; no finite set of configurations covers it.", "anchors": ["src/properties.cpp:QueryRewrite"]}
{"id": "C35", "title": "Name-server-contact check is exact", "statement": "A Name Server Contact violation is reported iff some resolution contacts a server whose name is outside the allowed domains.", "quantifier": "all configurations (zones, servers, top servers), all query classes, all job settings", "why_tests_cant": "The check walks every path of a graph built from arbitrary zone data; no finite set of configurations covers it.", "anchors": ["src/properties.cpp:NameServerContact"]}
{"id": "C36", "title": "Rewrite-blackholing check is exact", "statement": "A Rewrite Blackholing violation is reported iff some resolution is rewritten and ends with NXDOMAIN; it names the first rewritten query, the last query and the last server.", "quantifier": "all configurations (zones, servers, top servers), all query classes, all job settings", "why_tests_cant": "The check walks every path of a graph built from arbitrary zone data; no finite set of configurations covers it.", "anchors": ["src/properties.cpp:RewriteBlackholing"]}
{"id": "C37", "title": "Lame-delegation check is exact", "statement": "A Lame Delegation violation is reported iff on some resolution a referring server is followed by one that refuses the original name.", "quantifier": "all configurations (zones, servers, top servers), all query classes, all job settings", "why_tests_cant": "The check walks every path of a graph built from arbitrary zone data; no finite set of configurations covers it.", "anchors": ["src/properties.cpp:CheckLameDelegation"]}
{"id": "C38", "title": "Delegation-consistency check is exact", "statement": "A Delegation Consistency violation is reported iff at the last zone cut of some resolution (a referral followed by NS-labelled records for the queried name, owned by the same name) the NS records differ as multisets, or the addresses do, restricted on the parent side to names below the cut.", "quantifier": "all configurations (zones, servers, top servers), all query classes, all job settings", "why_tests_cant": "The check walks every path of a graph built from arbitrary zone data; no finite set of configurations covers it.", "anchors": ["src/properties.cpp:CheckDelegationConsistency"]}
{"id": "C39", "title": "Response-returned check is exact", "statement": "For an existing class a Response Returned violation is reported iff an end of some resolution, asked for a checked type and neither refusing nor unknown, answers some checked type with no record. For a nonexistent class everything reported is still true.", "quantifier": "all configurations (zones, servers, top servers), all query classes, all job settings", "why_tests_cant": "The check walks every path of a graph built from arbitrary zone data; no finite set of configurations covers it.", "anchors": ["src/properties.cpp:CheckResponseReturned"]}
{"id": "C40", "title": "Response-value check is exact", "statement": "A Response Value violation lists exactly the ends of resolutions that were asked for a checked type and returned a set of values different from the expected one (or NXDOMAIN/YXDOMAIN), and exists iff there is such an end.", "quantifier": "all configurations (zones, servers, top servers), all query classes, all job settings", "why_tests_cant": "The check walks every path of a graph built from arbitrary zone data; no finite set of configurations covers it.", "anchors": ["src/properties.cpp:CheckResponseValue"]}
{"id": "C41", "title": "Response-consistency check is exact", "statement": "A Response Consistency violation is reported iff two ends that answered (asked for a checked type) returned different multisets of records, or, both being asked for CNAME, answers of different kinds.", "quantifier": "all configurations (zones, servers, top servers), all query classes, all job settings", "why_tests_cant": "The check walks every path of a graph built from arbitrary zone data; no finite set of configurations covers it.", "anchors": ["src/properties.cpp:CheckSameResponseReturned"]}
{"id": "C42", "title": "Zero-TTL check is exact", "statement": "A Zero TTL violation is reported iff an end of some resolution, asked for a checked type, returned a record with TTL 0; it names the record and the server.", "quantifier": "all configurations (zones, servers, top servers), all query classes, all job settings", "why_tests_cant": "The check walks every path of a graph built from arbitrary zone data; no finite set of configurations covers it.", "anchors": ["src/properties.cpp:ZeroTTL"]}
{"id": "C43", "title": "All-aliases enumeration is exact", "statement": "An alias (s, s') is reported iff on some resolution a rewriting step at the query s is followed later by a query s' whose name is one of the given canonical names.", "quantifier": "all configurations (zones, servers, top servers), all query classes, all job settings", "why_tests_cant": "The check walks every path of a graph built from arbitrary zone data; no finite set of configurations covers it.", "anchors": ["src/properties.cpp:AllAliases"]}
{"id": "C44", "title": "Infinite-DNAME check is exact", "statement": "A DNAME-recursion violation is reported for a resolution iff along it the same record (ignoring TTL) rewrites twice without the query name getting shorter. The report names the first such repetition along the resolution, the last use of the record before it, and lists exactly the records used for rewriting up to then, each once.", "quantifier": "all configurations (zones, servers, top servers), all query classes, all job settings", "why_tests_cant": "The check walks every path of a graph built from arbitrary zone data; no finite set of configurations covers it.", "anchors": ["src/properties.cpp:InfiniteDName"]}
{"id": "C45", "title": "DNAME length overflow check is exact", "statement": "A DNAME length violation is reported iff some resolution ends with a name that exceeded the length limits (YXDOMAIN).", "quantifier": "all configurations (zones, servers, top servers), all query classes, all job settings", "why_tests_cant": "The check walks every path of a graph built from arbitrary zone data; no finite set of configurations covers it.", "anchors": ["src/properties.cpp:DNAMESubstitutionExceedesLength"]}
{"id": "C46", "title": "The structural delegation check reports exactly the pairs that differ", "statement": "For a name with NS records, every zone with the nearest enclosing origin that holds records at the name (parent) is compared with every zone whose apex is the name (child), every two parents and every two children are compared; the report has one entry for each pair whose NS records, or required glue, differ (as multisets of owner, type, data), showing the common and the exclusive records of both servers, and there is no report when no pair differs.", "quantifier": "all loaded configurations in which every file gave a zone with one non-root apex; all names", "why_tests_cant": "All inputs", "anchors": ["src/label-graph.cpp:CheckStructuralDelegationConsistency", "src/label-graph.cpp:CompareParentChildDelegationRecords"]}
{"id": "C47", "title": "No work or violation is lost between threads", "statement": "For every number of consumer threads and every interleaving of the EC producer, the consumers, the JSON writer and the statistics collector: when all threads have ended, every generated class has been processed exactly once, every violation enqueued by the checks has been taken by the writer exactly once, every statistics item has been counted, all queues are empty, and the set of reports is the one of a sequential run.", "quantifier": "all schedules, all positive thread counts, all task lists and outputs", "why_tests_cant": "All interleavings", "anchors": ["src/driver.cpp:GenerateECsAndCheckProperties"]}
{"id": "C48", "title": "The threads always shut down", "statement": "In every reachable state each thread that has not ended can take a step, and every schedule that does not starve a thread ends with all threads ended.", "quantifier": "all fair infinite schedules, all reachable states, all positive thread counts", "why_tests_cant": "All interleavings", "anchors": ["src/driver.cpp:GenerateECsAndCheckProperties"]}
{"id": "C49", "title": "Jobs are independent", "statement": "Loading a job determines the domain, subdomain flag, requested types and checks from its own description alone, whatever jobs were loaded before (the code breaks this for the structural check, which stays on).", "quantifier": "all previous jobs and job descriptions", "why_tests_cant": "All histories", "anchors": ["src/driver.cpp:SetJob"]}
{"id": "C50", "title": "The lint file is always a well-formed JSON array", "statement": "After any number of lint issues the lint file is a JSON document (RFC 8259) whose value is the array of exactly these issues in order. No other value has this text, so any conforming reader recovers exactly the issues.", "quantifier": "all sequences of issues", "why_tests_cant": "All histories", "anchors": ["src/utils.cpp:WriteIssueToFile", "bin/groot.cpp"]}
{"id": "C51", "title": "The output file is a JSON array of all reports, each once", "statement": "The written file is a JSON document whose value is the array of all reports of all jobs without duplicates; it is written iff all texts are valid UTF-8 (otherwise the run ends without output). A reader following the grammar gets exactly these reports and nothing else; different reports never give the same file.", "quantifier": "all violation lists, all jobs, all zone texts", "why_tests_cant": "All sizes", "anchors": ["src/driver.cpp:WriteViolationsToFile"]}
{"id": "C52", "title": "Alias violations are aggregated per canonical name", "statement": "All alias reports of a job appear in one report with each canonical name once and, for it, exactly the aliases reported, each once.", "quantifier": "all sequences of alias reports", "why_tests_cant": "All histories", "anchors": ["src/driver.cpp:GenerateECsAndCheckProperties"]}
{"id": "C53", "title": "The tokenizer is total and lossless", "statement": "Every byte string is split into exactly one sequence of tokens whose concatenation is the input; each token is the longest match at its place, ties broken by rule order; a text written token by token (fields separated by blanks) is read back as those tokens; only a lone quote, a semicolon ending a line and a carriage return are ignored.", "quantifier": "all byte strings", "why_tests_cant": "All inputs", "anchors": ["src/zone-file-parser.cpp:zone_file_tokens"]}
{"id": "C54", "title": "A zone file means the records its lines state", "statement": "For a file whose lines are record lines, $ORIGIN and $TTL lines, blank lines and comments, loading accepts the file and the zone holds exactly the stated records at exactly the stated names: an absolute owner as written, a relative one completed with the current origin, the origin for @, the previous owner for a blank one; letter case is folded; targets of NS, CNAME, DNAME and MX are completed likewise; records outside the zone and duplicates are left out.", "quantifier": "all zone file texts of the grammar, all origins, all previously loaded configurations", "why_tests_cant": "All inputs", "anchors": ["src/zone-file-parser.cpp:Parser"]}
{"id": "C55", "title": "TTL and class defaults", "statement": "A record line may state TTL and class in either order or leave them out; an explicit TTL is kept, a missing one is the current default (the last $TTL directive, or before any the first stated TTL), and a line has one reading.", "quantifier": "all record lines", "why_tests_cant": "All inputs", "anchors": ["src/zone-file-parser.cpp:Parser"]}
{"id": "C56", "title": "Comments and parentheses do not change the parsed records", "statement": "The records read depend only on the fields of each line: comments, the amount of blank space, line breaks inside parentheses and parentheses within one line change nothing.", "quantifier": "all token streams and texts", "why_tests_cant": "All inputs", "anchors": ["src/zone-file-parser.cpp:Parser"]}
{"id": "C57", "title": "The metadata check accepts exactly usable metadata", "statement": "The metadata is accepted iff it has TopNameServers and ZoneFiles, every zone entry has a file name and name server and its file exists, and some top name server equals (ignoring case) the name server of some zone; otherwise the program exits before reading any zone file.", "quantifier": "all metadata and file systems", "why_tests_cant": "All inputs", "anchors": ["src/driver.cpp:MetadataSanityCheck"]}
{"id": "C60", "title": "Testing one class tests all the names it stands for", "statement": "Take a class 'any other name below n' and a concrete name n.l.rest whose first new label l owns no record at n nor wherever DNAMEs take n, and which DNAMEs do not push across the length limits. Then resolving that name contacts the same servers, receives the same answers and takes the same steps as resolving the class (in both directions), its graph is the class's graph with the query names extended, with the same loops and paths, and every check that does not look at query names gives the same reports but for the query text. For every configuration loaded from files in which no DNAME target lies strictly below another DNAME owner, every name at or below the queried domain of at most 252 octets is covered by such a class or has its own. (Without that condition the tool misses records: shown by a refutation.)", "quantifier": "all configurations and zone files, all query domains, all classes, all of the infinitely many concrete names of each class, all settings of the checks", "why_tests_cant": "The tool's whole method is to test one representative of infinitely many names; no finite set of names shows that the others behave alike.", "anchors": ["src/interpretation-graph.cpp:QueryResolver", "src/zone-graph.cpp:QueryLookUpAtZone", "src/label-graph.cpp: GenerateECs, SubDomainECGeneration", "src/ec-task.cpp: ECTask::Process"]}
{"id": "C61", "title": "Checking a class always completes", "statement": "For every well-formed configuration with named servers and at least one top server, every class asking for at least one type and every set of checks, building the graph, the loop check and all checks terminate without undefined behaviour, exit or exception, with one result.", "quantifier": "all configurations (zones, servers, top servers), all query classes, all job settings", "why_tests_cant": "Termination and absence of undefined behaviour over all zone data, including cyclic and growing rewrites.", "anchors": ["src/ec-task.cpp:ECTask::Process", "src/interpretation-graph.cpp", "src/properties.cpp"]}
{"id": "C62", "title": "A loaded configuration is well formed", "statement": "Whenever loading metadata and zone files succeeds, zone ids are distinct and increasing, each zone belongs to the server its metadata entry names, every server's zone list names exactly its loaded zones, each zone holds records at or below its first SOA only, and the label graph holds exactly the records of the zones, with the node that holds them; files of the grammar of C54 always load; and a loaded configuration without DS records meets the hypotheses of the resolution and check theorems.", "quantifier": "all metadata, all file contents, lint on or off", "why_tests_cant": "Well-formedness is the hypothesis every other guarantee rests on; it has to hold after loading any set of files.", "anchors": ["src/driver.cpp: Driver::SetContext", "src/zone-file-parser.cpp: ParseZoneFileAndExtendGraphs, Parser", "src/zone-graph.cpp: zone::Graph::AddResourceRecord", "src/label-graph.cpp: label::Graph::AddResourceRecord"]}
{"id": "C63", "title": "A run with usable inputs always completes", "statement": "Once metadata and zone files are loaded (no DS records), running any list of jobs whose record types are known, whose hop and rewrite bounds are ints and which each ask for at least one record type ends normally: no exception, no undefined behaviour, no endless resolution, whatever loops the records contain. If the files can be read line by line, the program writes its output file (and lint file) unless some reported text is not UTF-8.", "quantifier": "all metadata, zone file contents, job lists (also the default job), lint on or off", "why_tests_cant": "Termination and absence of undefined behaviour over every configuration with arbitrary CNAME, DNAME and NS cycles cannot be sampled.", "anchors": ["bin/groot.cpp: main, demo", "src/driver.cpp: Driver::SetJob, GenerateECsAndCheckProperties, WriteViolationsToFile", "src/label-graph.cpp: GenerateECs, CheckStructuralDelegationConsistency", "src/ec-task.cpp: ECTask::Process"]}
{"id": "C64", "title": "The JSON documents are read as written", "statement": "For every JSON document given as metadata or jobs file, what the program loads and checks is exactly what the document says (top name servers, zone entries with optional origin, jobs with their properties, types, values and bounds), a document that does not have the documented shape contributes nothing, each document says one thing only, and reading a document whose documented keys are present is never undefined. The whole program behaves as on the contents the documents state.", "quantifier": "all JSON documents (any nesting, any kinds), all file systems, lint on or off", "why_tests_cant": "The set of documents is infinite and the reading code relies on implicit conversions whose failure cases tests do not enumerate.", "anchors": ["src/driver.cpp: Driver::MetadataSanityCheck, SetContext, SetJob", "bin/groot.cpp: Main"]}
{"id": "C65", "title": "How the program ends and when it writes its output", "statement": "With usable documents and readable zone files the process returns 0, and it writes the complete list of reports (and lint issues) exactly when every text in them is UTF-8. Metadata that is well formed but not acceptable (missing file, no zone for any top name server, missing keys) ends with status 1 whatever the jobs file holds. Output is only ever written after the metadata was accepted and every job was read and run.", "quantifier": "all documents, all file systems, all jobs, lint on or off", "why_tests_cant": "It is a claim about every execution of the whole program over unbounded inputs.", "anchors": ["bin/groot.cpp: main, Main", "src/driver.cpp: WriteViolationsToFile, MetadataSanityCheck"]}
{"id": "C66", "title": "Class generation does not depend on the schedule of its threads", "statement": "A job on an existing domain starts one producer thread per closest encloser. If no producer can reach a DNAME target of another (in particular if there is no DNAME at or below the domain), then under every interleaving all producers end within a bound, none ever blocks, and together they push exactly the classes of the sequential order, so that every name below the domain is covered; if they cannot meet at all the scratch marks are clean afterwards. Without that condition this fails: there are schedules that lose a class, that leave a mark which makes a later search miss an existing name, and that recurse without end.", "quantifier": "all histories of records, all domains and type sets, all schedules of all producer threads", "why_tests_cant": "The failing interleavings need two threads at one node at the same instant; tests neither force nor exclude them.", "anchors": ["src/label-graph.cpp: label::Graph::GenerateECs (producer threads), SubDomainECGeneration"]}
{"id": "C67", "title": "Every report about a query is about what a resolver does", "statement": "Say which server replies what to which query (from the zones) and whom a resolver asks next, with no graph. A trace of a query is a complete resolution: it starts at a root server, each contact follows from the reply before, and it ends where nothing follows without asking any server the same thing twice, or with an alias that itself answers the question. The resolution paths the tool finds are exactly the traces, and each of the fifteen kinds of report about a query appears if and only if some trace (or, for loops, the relation 'this contact needs that one') shows the corresponding fault, with the servers, counts and texts named in the report.", "quantifier": "all configurations, queries and sets of checks whose check finishes (no query or name server name over the length limit, all root servers host something)", "why_tests_cant": "It is an equivalence between graph algorithms with sharing, cycle cutting and side queries and a relation over unboundedly long resolutions.", "anchors": ["src/interpretation-graph.cpp: Graph::Graph, QueryResolver, StartFromTop, GenerateDotFile (excluded), CheckForLoops, CheckPropertiesOnEC", "src/properties.cpp: all property functions", "src/ec-task.cpp: EC::Process"]}
{"id": "C68", "title": "A check reports something exactly when the query is at fault, and a name shows the faults of its class", "statement": "For each check say when resolving a query is at fault (too many hops, a rewrite to a foreign domain, a lame or inconsistent delegation, a loop, ...), in terms of what servers reply and whom a resolver asks next. Checking a query gives a report of a requested check if and only if the query has that check's fault. A concrete name that belongs to a class 'everything else below n' and is asked for the same types has only faults that the class has, so checking the class misses none of them; conversely the class's faults show in each such name that no CNAME or NS record leads to. The labels a class excludes and the mark that its names do not exist affect no fault.", "quantifier": "all configurations, queries, checks, classes, and all names (of any length) below a class whose first further label is new there and wherever DNAMEs lead", "why_tests_cant": "It relates unboundedly long resolutions of infinitely many concrete names to those of one symbolic query.", "anchors": ["src/properties.cpp: all property functions", "src/interpretation-graph.cpp: Graph::Graph, CheckForLoops, CheckPropertiesOnEC", "src/zone-graph.cpp: Graph::QueryLookUpAtZone", "src/equivalence-class.h: EC"]}
{"id": "C69", "title": "A clean report vouches for every name of the domain", "statement": "Run the program on loaded zone files and a list of jobs. Take any name x of a job's domain (the domain itself, or any name below it if subdomains are included), with or without records, of at most 252 octets. If resolving x for the job's record types shows a fault that one of the job's properties looks for (or a loop), then the output contains a report of that property: a job without reports has no faulty name. This holds for names that have records at or below them (also through DNAMEs); for other names if nothing DNAMEs make of x is too long, wildcards that apply to x are visible next to it, and, for the checks that look at query names, no CNAME or NS record points at x.", "quantifier": "all configurations whose DNAME targets are not renamed again, all jobs, all names of their domains, all requested checks", "why_tests_cant": "Infinitely many names and all configurations", "anchors": ["src/driver.cpp:GenerateECsAndCheckProperties", "src/label-graph.cpp:GenerateECs", "src/ec-task.cpp:Process", "src/properties.cpp"]}
{"id": "C70", "title": "The output does not depend on the schedule of the threads", "statement": "Run the program on a list of jobs, with any interleaving of all its threads: the producers of equivalence classes (one per closest encloser), the eight consumers, the JSON consumer and the statistics collector of each job, the jobs one after the other over the same label graph. If for no job two producers can come to the same node of the label graph, then the output holds exactly the reports of the sequential run (an alias report up to the order of its entries), no queue keeps an item, no state is left behind for the next job, every schedule that starves no thread ends, and every unfinished run can still end. The condition holds in particular for a job whose domain has no DNAME above it. Without the condition it is false: reports can be missing from the output.", "quantifier": "all configurations, all job lists, all interleavings of all threads", "why_tests_cant": "All interleavings of a dozen threads per job over all configurations", "anchors": ["src/driver.cpp:GenerateECsAndCheckProperties", "src/label-graph.cpp:GenerateECs", "src/label-graph.cpp:SubDomainECGeneration", "bin/groot.cpp"]}
{"id": "C71", "title": "The output file says exactly what was found", "statement": "Run the program on a configuration and a list of jobs. Each object of the output names the property, the query and the details of one finding (all members it should have, none other, none twice), and different findings give different objects. A finding (other than an alias or a structural one) is described by some object of the output iff it was found for one of the equivalence classes of one of the jobs; the aliases found by a job are grouped, each canonical name once, with exactly its aliases; nothing else is in the output. So every report is about a fault that resolving the class really shows and that a job asked to look for, and every such fault is reported. The objects of the lint file state the file, line, record and violation of the issue.", "quantifier": "all configurations, zone files, job lists, classes, faults", "why_tests_cant": "All findings of all runs; the sets of reports and their JSON are compared as wholes", "anchors": ["src/properties.cpp", "src/driver.cpp:WriteViolationsToFile", "src/label-graph.cpp:StructuralDelegationConsistency", "src/zone-file-parser.cpp"]}
{"id": "C72", "title": "The structural check changes nothing about the classes", "statement": "Asking a job for the structural delegation check in addition leaves the set of equivalence classes that are examined, and the state left behind in the label graph, as they are; and structural tasks are only created if asked for.", "quantifier": "all label graphs, domains, type sets, sub-domain settings", "why_tests_cant": "All label graphs and jobs", "anchors": ["src/label-graph.cpp:GenerateECs", "src/label-graph.cpp:SubDomainECGeneration"]}
{"id": "C73", "title": "Running without a jobs file", "statement": "Without a jobs file the program does exactly what it does with a jobs file of one job: domain \".\", sub-domains included, no record types given (so NS only), and the properties Hops 2, Rewrites 1, DelegationConsistency, LameDelegation, QueryRewrite within \".\", RewriteBlackholing. So for a completed run its output has a Hops report iff some resolution of a class of names contacts more than two servers, a Rewrites report iff some resolution is rewritten more than once, a report for each lame and each inconsistent delegation, and a loop report iff some resolution never ends. Since every name is below \".\", the QueryRewrite part never reports anything. With a jobs file that is an empty list the output is an empty array.", "quantifier": "all configurations, all metadata documents, lint on or off", "why_tests_cant": "All configurations; the equality is about the whole program", "anchors": ["src/driver.cpp:SetJob", "bin/groot.cpp:Main"]}
{"id": "C74", "title": "Every record left out of its zone is reported, with the reason", "statement": "With lint on, for every zone file whose lines are understood, the issues listed are exactly one for each record of the file that is not stored in the zone, in the order of the file, with the file name, the number of the line the record ends on, the record, the reason and (for conflicts) the first record stored at the same name. The reasons are: a label of the owner or of the NS/CNAME/DNAME target over 63 bytes (naming the first one), a name or target too long, outside the zone, duplicate, second CNAME, CNAME together with another type, second DNAME. A record is left out iff one of the reasons applies, and only one can apply. Records parsed = records stored + issues. With lint off nothing is listed, whatever the files contain. The number is that of the line in the text as long as no quoted string spans lines (refuted otherwise).", "quantifier": "all configurations loaded so far, all zone-file texts whose lines are understood, all origins and servers, lint on or off; all lists of zone files", "why_tests_cant": "All texts and record sequences; the order of checks and of conflicts matters", "anchors": ["src/zone-file-parser.cpp:Parser::operator()", "src/zone-file-parser.cpp:WriteRRIssueToFile", "src/zone-graph.cpp:AddResourceRecord", "src/utils.cpp:LengthCheck"]}
{"id": "C75", "title": "The record statistics", "statement": "After reading the zone files the number under each heading is the sum over the files of: for a type, the records of this type stored; for Wildcard, the stored records whose leftmost label is *; for each kind of problem (label length, domain length, out of zone, duplicate, CNAME/DNAME), the records left out for it. So each record counts exactly once, stored wildcards once more.", "quantifier": "all zone-file texts whose lines are understood, all lists of zone files, all headings", "why_tests_cant": "All texts and record sequences", "anchors": ["src/zone-file-parser.cpp:Parser::operator()", "src/zone-file-parser.cpp:ParseZoneFileAndExtendGraphs"]}
{"id": "C76", "title": "The statistics of the jobs count each class once", "statement": "After a job, under every schedule of its threads (no two producers meeting, as in C70), the number of classes logged is the number of classes generated for that job, and the vertex and edge numbers collected are those of the interpretation graphs of these classes, one entry each; they do not depend on the jobs before it. The total is the sum over the jobs. Without DNAME records a job with subdomains on a known domain has exactly two classes per known name at or below it that is at most 252 octets long (the name, and the unknown names below it), all different; on an unknown domain or without subdomains exactly one; on a domain that is too long none. Maximum, minimum and mean are those of the collected numbers, in any order. Refuted: with a DNAME record a class can be examined and counted several times.", "quantifier": "all configurations, all lists of jobs, all schedules of all threads, all classes", "why_tests_cant": "All interleavings and configurations", "anchors": ["src/driver.cpp:Driver::GenerateECsAndCheckProperties", "src/driver.cpp:Driver::WriteStatsForAJob", "src/ec-task.cpp:ECTask::Process", "src/label-graph.cpp:SubDomainECGeneration", "bin/groot.cpp:Main"]}
{"id": "C77", "title": "The output file is sorted and reproducible", "statement": "The reports are written in strictly ascending order of the JSON values (numbers, objects, arrays, texts; texts byte by byte, arrays and objects by the first difference), under every schedule of the threads. So alias lists come first, then structural findings, unexpected values and loops, then the other properties in alphabetical order, the findings about one property together. If no job asks for AllAliases (and no two producers meet, as in C70) the file is the same text under every schedule. It is the same text for every order of the jobs and however often a job is listed, if all jobs or none ask for the structural check. Refuted: with one job that asks for it and one that does not, the order of the jobs changes the reports.", "quantifier": "all configurations, all lists of jobs and their orders, all schedules", "why_tests_cant": "All schedules, all sets of reports; the order is that of whole JSON values", "anchors": ["src/driver.h:property_violations_", "src/driver.cpp:WriteViolationsToFile", "src/driver.cpp:GenerateECsAndCheckProperties", "bin/groot.cpp"]}
{"id": "C78", "title": "What a run leaves in the output file and in lint.json", "statement": "A run that reaches its end leaves in the output file (--output, by default output.json) a JSON array of its reports and nothing of what was there before, and with --lint a JSON array of the lint issues in lint.json. No other file is written; without --lint lint.json stays as it was. A run that does not reach its end leaves the output file exactly as it was before the run, except that a report with a text that is not UTF-8 breaks it off (then it is no JSON); with --lint it leaves a lint.json that is no JSON, whatever stopped it. An empty --jobs means the default job. Refuted: status 0 does not mean that the output file belongs to this run (it may hold the reports of an earlier one); with --lint --output=lint.json the file is never JSON.", "quantifier": "all options, all earlier contents of all files, all zone directories, all JSON parsers, all endings of the program", "why_tests_cant": "Ranges over every way a run can stop and over all earlier contents of the disk", "anchors": ["bin/groot.cpp:main", "bin/groot.cpp:Main", "src/driver.cpp:WriteViolationsToFile", "src/utils.cpp:WriteIssueToFile"]}
{"id": "C79", "title": "The order of the zone files in the metadata does not matter", "statement": "If the files of the metadata load in one order, they load in every order, with the same number of records, the same lint issues and missing glue (each as often) and the same zones on the same servers. Each job has the same classes, and if no server has two zones of one origin, each class has the same results, so the output states the same findings and aliases; without structural checks and alias lists the output file is the same text. Refuted: of two zones of one origin on one server the one listed first counts; the structural check lists and names the servers in the order of the files.", "quantifier": "all metadata and all permutations of their zone files, all file contents, all jobs, with and without lint", "why_tests_cant": "Ranges over all configurations and all orders", "anchors": ["src/driver.cpp:SetContext", "src/driver.cpp:ParseZoneFileAndExtendGraphs", "src/interpretation-graph.cpp:GetRelevantZone", "src/label-graph.cpp:AddResourceRecord"]}
{"id": "C80", "title": "A job for a domain includes the jobs for the names below it", "statement": "With the same properties, every class of a job for a known name is also a class of each job with subdomains for a domain above it, so every finding and alias in the output of the former is in the output of the latter. Conversely the classes of a known domain with subdomains are those with its own name and those of the jobs for the names with one more label.", "quantifier": "all configurations without the label \".\" and without a DNAME at the root, all pairs of jobs with the same properties, all findings", "why_tests_cant": "Ranges over all configurations and all pairs of domains", "anchors": ["src/label-graph.cpp:GenerateECs", "src/label-graph.cpp:SubDomainECGeneration", "bin/groot.cpp:main"]}
{"id": "C81", "title": "The properties of a job do not influence each other, except through the record types", "statement": "Asked of the same class, the findings of a job are exactly the findings of its properties taken alone. So a job can be split into two with fewer properties each and the two together state the same findings and aliases, if both parts ask for the record types of the whole. Refuted without that: a property finds a rewrite only because another property of the job asks for another type.", "quantifier": "all configurations, all jobs and all ways to split their properties", "why_tests_cant": "Ranges over all configurations, classes and sets of properties", "anchors": ["src/driver.cpp:SetJob", "src/interpretation-graph.cpp:CheckPropertiesOnEC", "src/ec-task.cpp:Process"]}
{"id": "C82", "title": "Zones on servers that are never consulted do not matter", "statement": "Resolution starts at the top servers and goes on to servers named by NS records of the zones on servers it has come to. Listing further zone files for servers that cannot be come to in this way (whatever they contain) changes the result of no query; jobs for known domains keep all their findings and aliases, and have exactly the same ones if they do not ask for subdomains. Refuted with subdomains: names known only to such servers are checked as well and give new findings.", "quantifier": "all zone files, metadata, additional zone files, queries, checks and jobs", "why_tests_cant": "Ranges over all configurations and all additions to them", "anchors": ["src/interpretation-graph.cpp:QueryResolver", "src/interpretation-graph.cpp:StartFromTop", "src/interpretation-graph.cpp:NSSubRoutine", "src/driver.cpp:SetContext", "src/label-graph.cpp"]}
{"id": "C83", "title": "Upper and lower case make no difference", "statement": "Writing letters in another case in the zone files (outside the words from a dollar sign to the next blank), in the server names, top servers and origins of the metadata, and in the domains and domain values of the jobs changes neither the output file nor lint.json nor how the program ends. Refuted for directive words, for the values of ResponseValue (records are stored in small letters, the values are compared as written) and for the type names of a job.", "quantifier": "all zone file texts, metadata and jobs, and all ways to change the case of their letters", "why_tests_cant": "Ranges over all texts and all subsets of their letters", "anchors": ["src/zone-file-parser.cpp:operator()", "src/zone-file-parser.cpp:GetTypeIndex", "src/driver.cpp:SetContext", "src/driver.cpp:SetJob"]}
{"id": "C84", "title": "What is asked for in the jobs file is what the output file reports", "statement": "For each kind of report: it stands in the output file iff some entry of some job in the jobs file asks for that property (by its JSON name, with these bounds, values, types or domains) and, for a class of queries of that job, the resolution of the class by the loaded servers shows the fault: more hops or rewrites than allowed, a referral to a refusing server, NS or glue differing across the last cut, a rewrite leaving the allowed domains, a contacted server outside them, a rewrite chain ending in NXDOMAIN, a DNAME used twice, a name grown too long, an alias of one of the domains, a missing or wrong response, contradicting responses, a zero TTL, a loop (looked for in every job). A structural delegation report stands there iff the check is in force for a job with subdomains (it or an earlier job asks for it) and the zones of the servers disagree about the delegation of a name that lies below the place where the job's domain comes out.", "quantifier": "all zone files, metadata, jobs files and completed runs; all reports", "why_tests_cant": "it ties every entry of every jobs file to every resolution of every class, over all configurations", "anchors": ["bin/groot.cpp main loop", "src/driver.cpp Driver::SetJob, WriteViolationsToFile", "src/properties.cpp", "src/interpretation-graph.cpp CheckPropertiesOnEC, Properties::*", "src/label-graph.cpp CheckStructuralDelegationConsistency, SubDomainECGeneration"]}
{"id": "C85", "title": "The line at which loading stops, why, and what lint.json holds then", "statement": "If loading the zone files ends the program (metadata that passes its check), then there is a file and a line in it such that the files before and the text before that line's newline are read, and adding the newline ends the program, whatever follows. The line is of one of five kinds: $ORIGIN or $TTL without argument (undefined behaviour); $TTL with a text that does not begin with a 32-bit number, a TTL field that starts like a number and is not one, a DS record or a record after a DS record (exception, status 0); a record before the SOA (exit, status 1). Without --lint no file on disk changes; with --lint, lint.json holds exactly the issues found before that line, as a JSON array without its closing bracket (an issue text that is not UTF-8 throws instead).", "quantifier": "all zone file contents, metadata, options and disks; all ways loading can fail", "why_tests_cant": "it says of every text at which byte and why reading stops", "anchors": ["src/zone-file-parser.cpp Parser::operator(), AddRRAndCheck, WriteRRIssueToFile", "src/driver.cpp Driver::SetContext", "bin/groot.cpp main"]}
{"id": "C86", "title": "An edit to a zone only concerns the queries that come past it", "statement": "The answer of a server to a query depends only on: the records at the query's name and at its ancestors, which of these exist, the wildcards directly below them, and the addresses of the name servers named there. Hence if a zone file is edited at and below a name x only (x not a wildcard label, its parent existing before and after, the addresses of name servers named elsewhere unchanged), the answer to every query for a name not at or below x is the same; and if resolving a query class never asks that zone about a name at or below x - for instance because no query, CNAME, DNAME or NS record leads there - then checking the class gives exactly the same violations and graph sizes. With such an edit, jobs for single domains known before and after give the same findings. None of the conditions on the edit can be left out.", "quantifier": "all zones, edits, configurations, queries, query classes, checks and jobs", "why_tests_cant": "it compares two runs over all edits of all zones; a test sees one edit", "anchors": ["src/zone-graph.cpp GetAnswers, QueryLookUpAtZone", "src/interpretation-graph.cpp QueryResolver", "src/driver.cpp SetContext, GetRelevantZone"]}
{"id": "C87", "title": "The jobs of a jobs file one by one", "statement": "The reports of a run with several jobs are exactly the reports of its jobs, each run by itself - except that the structural check, once a job has asked for it, also runs in all later jobs, where it only adds structural reports. The run completes iff each of these single runs does. Jobs added anywhere in the list take no report away, and what they add are their own reports and structural ones; leaving jobs out cannot make a run fail. A job whose domain is too long (a label over 63 characters, or over 253 in all) is skipped without a word: both output files are as if it were not listed.", "quantifier": "all lists of jobs, loaded configurations and completed runs", "why_tests_cant": "it compares runs over all lists of jobs and all their sublists", "anchors": ["bin/groot.cpp main loop", "src/driver.cpp SetJob, GenerateECsAndCheckProperties", "src/label-graph.cpp GenerateECs"]}
{"id": "C88", "title": "The text of metadata.json and of the jobs file", "statement": "Each of the two files is read as the value that the JSON grammar gives to its beginning (after an optional byte order mark and white space; a repeated member: the last one counts), and this value is unique; a file whose beginning is no JSON value is refused: the process then returns 0, a bad metadata.json before any zone file is looked at, and in both cases without touching the output file. White space and the order of members have no influence on the run. What follows the first value is ignored, even if it is no JSON, so a file that is not valid JSON can be accepted. The output file of a run that reaches its end is read by the same reader as the same reports.", "quantifier": "all texts of metadata.json and of the jobs file, all documents, all runs", "why_tests_cant": "it ranges over all texts of unbounded length and nesting", "anchors": ["bin/groot.cpp metadataFile >> metadata, i >> jobs"]}
{"id": "C89", "title": "The job at which the process ends, and how", "statement": "If the zone files could be loaded, a run with a jobs file ends in exactly one of these ways: all jobs are read and run, and the output is written iff every text in the reports is UTF-8; or a lint issue is not UTF-8; or there is a first element of the jobs file that cannot be read (then an exception is caught and the process returns 0, unless a required key is missing) or whose checks break off (then the process crashes). What stands behind this element has no influence on the ending; the reports of all jobs before it are lost, and the output file stays as it was before the run.", "quantifier": "all zone directories that can be loaded, all jobs documents, all options", "why_tests_cant": "it classifies the endings for all documents and all positions of the offending job", "anchors": ["bin/groot.cpp Main, main", "src/driver.cpp SetJob, GenerateECsAndCheckProperties"]}
{"id": "C90", "title": "The record types of the queries", "statement": "The queries of a job ask for exactly the record types its properties name (NS for a property without a list), all of them together; only the class of the names not known at some place below the domain asks for every type, and a job without subdomains has no such class. On the way through the servers the types stay the same, except that CNAME is no longer asked for once an alias was followed. The types a ResponseReturned report lists are some of those such a property asks for. (Other checks do not look at the type: a job that asks for addresses only can report the TTL of a TXT record.)", "quantifier": "all loaded configurations, all jobs, all their classes, all resolutions, all reports of all completed runs", "why_tests_cant": "it ranges over all classes, resolutions of any length and all runs", "anchors": ["src/label-graph.cpp GenerateECs, SubDomainECGeneration", "src/interpretation-graph.cpp", "src/properties.cpp ResponseReturned, ZeroTTL", "src/driver.cpp SetJob"]}
{"id": "C91", "title": "Loosening a limit", "statement": "Take two completed runs over the same configuration whose job files differ only in one limit. If a bound of Hops (not negative) or of Rewrites is raised, the reports with the new bound are exactly those that were there with it and those with the old bound whose count is above the new one; reports with other bounds, and all other reports and lines of alias reports, stay (these also stay if the bound is lowered). If the allowed domains of QueryRewrite are widened no report appears that was not there, up to the list of domains it cites. If the allowed domains of NameserverContact are widened, the reports with the new list are those that were there with it and those with the old list about servers that are still outside, and none cites the old list. (A negative bound of Hops switches the check off, so raising it to 0 makes reports appear.)", "quantifier": "all configurations, all job files, all pairs of bounds or lists of domains, all reports of all pairs of completed runs", "why_tests_cant": "it relates two whole runs for all configurations, jobs and limits", "anchors": ["src/properties.cpp NumberOfHops, NumberOfRewrites, QueryRewrite, NameServerContact", "src/driver.cpp SetJob"]}
