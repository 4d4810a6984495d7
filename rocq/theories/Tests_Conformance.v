(** Tests_Conformance.v -- TESTS, not proofs: the model is run on the inputs of the
    repository's own tests (test/main-example-test.cpp, bankcardTest.cpp,
    integration-test.cpp, zone-graph-test.cpp) and compared with the numbers
    those tests expect.  Generated from test/TestFiles. *)
From Verif Require Import Base Model_Utils Model_Zone Model_Label Model_Interp Model_Props Model_Struct
  Model_Lexer Model_Parser Model_Driver Model_Json Model_Main.

Definition ccil_0 : string := "; <<>> DiG 9.11.3-1ubuntu1.11-Ubuntu <<>> AXFR cc.il.us. @66.99.142.110
;; global options: +cmd

cc.il.us.				      14400 IN SOA	us.illinois.net. us-domain.illinois.net. 2018083000 14400 3600 2419200 14400
cc.il.us.				      14400 IN NS	us1.illinois.net.
cc.il.us.				      14400 IN NS	us2.illinois.net.
*.cc.il.us.				      86400 IN A	91.144.20.76
clc.cc.il.us.				      14400 IN NS	ns1.illinois.nt.
clc.cc.il.us.				      14400 IN NS	ns2.illinois.net.
clc.cc.il.us.				      14400 IN NS	dns-t.clc.cc.il.us.
dns-t.clc.cc.il.us.			      14400 IN A	216.125.48.50
csc.cc.il.us.				      14400 IN NS	cscns1.sandburg.edu.
csc.cc.il.us.				      14400 IN NS	cscns2.sandburg.edu.
dacc.cc.il.us.				      14400 IN NS	ns1.illinois.net.
dacc.cc.il.us.				      14400 IN NS	ns2.illinois.net.
dacc.cc.il.us.				      14400 IN NS	jaguar.dacc.cc.il.us.
jaguar.dacc.cc.il.us.			      14400 IN A	64.107.112.2
harper.cc.il.us.			      14400 IN NS	ns1.illinois.net.
harper.cc.il.us.			      14400 IN NS	auth01.ns.uu.net.
harper.cc.il.us.			      14400 IN NS	ifirewall.harper.cc.il.us.
ifirewall.harper.cc.il.us.		      14400 IN A	157.178.1.101
hcc.cc.il.us.				      14400 IN NS	ns1.hcc.cc.il.us.
hcc.cc.il.us.				      14400 IN NS	ns2.hcc.cc.il.us.
ns1.hcc.cc.il.us.			      14400 IN A	216.125.243.6
ns2.hcc.cc.il.us.			      14400 IN A	4.17.210.2
highland.cc.il.us.			      14400 IN NS	ns1.illinois.net.
highland.cc.il.us.			      14400 IN NS	ns2.illinois.net.
icc.cc.il.us.				      14400 IN NS	ns.icc.cc.il.us.
icc.cc.il.us.				      14400 IN NS	epprddns02.icc.cc.il.us.
epprddns02.icc.cc.il.us.		      14400 IN A	216.124.224.245
ns.icc.cc.il.us.			      14400 IN A	216.124.224.253
iecc.cc.il.us.				      14400 IN NS	ns1.illinois.net.
iecc.cc.il.us.				      14400 IN NS	ns2.illinois.net.
iecc.cc.il.us.				      14400 IN NS	dns1.iecc.edu.
jal.cc.il.us.				      14400 IN NS	dns.jal.cc.il.us.
jal.cc.il.us.				      14400 IN NS	ns1.illinois.net.
jal.cc.il.us.				      14400 IN NS	ns2.illinois.net.
dns.jal.cc.il.us.			      14400 IN A	66.99.148.241
jjc.cc.il.us.				      14400 IN NS	ns1.illinois.net.
jjc.cc.il.us.				      14400 IN NS	ns2.illinois.net.
kc.cc.il.us.				      14400 IN NS	kccn.kc.cc.il.us.
kccn.kc.cc.il.us.			      14400 IN A	64.107.246.5
kcc.cc.il.us.				      14400 IN NS	ns1.illinois.net.
kcc.cc.il.us.				      14400 IN NS	ns2.illinois.net.
lakeland.cc.il.us.			      14400 IN NS	ns1.illinois.net.
lakeland.cc.il.us.			      14400 IN NS	ns1.lakeland.cc.il.us.
lakeland.cc.il.us.			      14400 IN NS	ns2.illinois.net.
lakeland.cc.il.us.			      14400 IN NS	ns2.lakeland.cc.il.us.
ns1.lakeland.cc.il.us.			      14400 IN A	207.63.74.136
ns2.lakeland.cc.il.us.			      14400 IN A	207.63.74.137
lc.cc.il.us.				      14400 IN NS	dns1.lc.cc.il.us.
lc.cc.il.us.				      14400 IN NS	dns2.lc.cc.il.us.
dns1.lc.cc.il.us.			      14400 IN A	216.125.196.10
dns2.lc.cc.il.us.			      14400 IN A	216.125.196.11
llcc.cc.il.us.				      14400 IN NS	ns.llcc.edu.
llcc.cc.il.us.				      14400 IN NS	ns1.illinois.net.
llcc.cc.il.us.				      14400 IN NS	ns2.illinois.net.
mchenry.cc.il.us.			      14400 IN NS	ns1.illinois.net.
mchenry.cc.il.us.			      14400 IN NS	ns2.illinois.net.
mchenry.cc.il.us.			      14400 IN NS	dns1.mchenry.cc.il.us.
dns1.mchenry.cc.il.us.			      14400 IN A	64.107.54.42
moraine.cc.il.us.			      14400 IN NS	mvccns1.morainevalley.edu.
moraine.cc.il.us.			      14400 IN NS	mvccns2.morainevalley.edu.
morton.cc.il.us.			      14400 IN NS	b.ns.verio.net.
morton.cc.il.us.			      14400 IN NS	t.ns.verio.net.
mv.cc.il.us.				      14400 IN NS	mvccns1.morainevalley.edu.
mv.cc.il.us.				      14400 IN NS	mvccns2.morainevalley.edu.
parkland.cc.il.us.			      14400 IN NS	ns1.illinois.net.
parkland.cc.il.us.			      14400 IN NS	ns1.parkland.edu.
parkland.cc.il.us.			      14400 IN NS	ns2.illinois.net.
prairie.cc.il.us.			      14400 IN NS	ns1.prairie.cc.il.us.
prairie.cc.il.us.			      14400 IN NS	ns2.prairie.cc.il.us.
ns1.prairie.cc.il.us.			      14400 IN A	66.158.49.3
ns2.prairie.cc.il.us.			      14400 IN A	66.158.49.4
richland.cc.il.us.			      14400 IN NS	ns1.illinois.net.
richland.cc.il.us.			      14400 IN NS	ns1.richland.cc.il.us.
richland.cc.il.us.			      14400 IN NS	ns1.richland.edu.
richland.cc.il.us.			      14400 IN NS	ns2.illinois.net.
richland.cc.il.us.			      14400 IN NS	ns2.richland.edu.
ns1.richland.cc.il.us.			      14400 IN A	64.107.104.28
rlc.cc.il.us.				      14400 IN NS	ns1.illinois.net.
rlc.cc.il.us.				      14400 IN NS	ns2.illinois.net.
rvc.cc.il.us.				      14400 IN NS	ns1.illinois.net.
rvc.cc.il.us.				      14400 IN NS	ns2.illinois.net.
rwhois.cc.il.us.			      14400 IN CNAME	us.illlinois.net.
shawnee.cc.il.us.			      14400 IN NS	ns1.illinois.net.
shawnee.cc.il.us.			      14400 IN NS	ns2.illinois.net.
shawnee.cc.il.us.			      14400 IN NS	shawneedns.shawnee.cc.il.us.
shawneedns.shawnee.cc.il.us.		      14400 IN A	216.124.211.20
sic.cc.il.us.				      14400 IN NS	ns1.illinois.net.
sic.cc.il.us.				      14400 IN NS	ns2.illinois.net.
southwestern.cc.il.us.			      14400 IN NS	ns1.illinois.net.
southwestern.cc.il.us.			      14400 IN NS	ns2.illinois.net.
src.cc.il.us.				      14400 IN NS	ns.src.cc.il.us.
src.cc.il.us.				      14400 IN NS	ns1.illinois.net.
src.cc.il.us.				      14400 IN NS	ns2.illinois.net.
ns.src.cc.il.us.			      14400 IN A	216.124.232.131
ssc.cc.il.us.				      14400 IN NS	ns1.illinois.net.
ssc.cc.il.us.				      14400 IN NS	ns2.illinois.net.
ssc.cc.il.us.				      14400 IN NS	elgin.ssc.cc.il.us.
ssc.cc.il.us.				      14400 IN NS	hunley.ssc.cc.il.us.
elgin.ssc.cc.il.us.			      14400 IN A	64.107.45.5
hunley.ssc.cc.il.us.			      14400 IN A	64.107.44.10
trial.cc.il.us.				      14400 IN DNAME	richland.cc.il.us.
whois.cc.il.us.				      14400 IN CNAME	us.illinois.net.

;; https://tldrproject.s3.amazonaws.com/index.html?prefix=cc.il.us./
;; Query time: 80 msec
;; SERVER: 66.99.142.110#53(66.99.142.110)
;; WHEN: Thu May 14 15:06:48 PDT 2020
;; XFR size: 108 records (messages 1, bytes 2134)

"%string.
Definition ccil_1 : string := "; <<>> DiG 9.11.3-1ubuntu1.11-Ubuntu <<>> AXFR richland.cc.il.us. @ns2.richland.edu.
;; global options: +cmd

@               			      43200 IN SOA	ns1.richland.edu. james.richland.edu. 19122302 10800 3600 3600000 86400
richland.cc.il.us.			      43200 IN NS	ns1.illinois.net.
richland.cc.il.us.			      43200 IN NS	ns1.richland.cc.il.us.
richland.cc.il.us.			      43200 IN NS	ns1.richland.edu.
richland.cc.il.us.			      43200 IN NS	ns2.illinois.net.
richland.cc.il.us.			      43200 IN NS	ns2.richland.cc.il.us.
richland.cc.il.us.			      43200 IN NS	ns2.richland.edu.
richland.cc.il.us.			      43200 IN A	64.107.104.27
richland.cc.il.us.			      43200 IN MX	10 smtp.richland.edu.
richland.cc.il.us.			      43200 IN TXT	""v=spf1 a mx ~all""
child.richland.cc.il.us.		      4500 IN NS	ns1.child.richland.cc.il.us.
child.richland.cc.il.us.		      4500 IN NS	ns2.child.richland.cc.il.us.
ns1.child.richland.cc.il.us.		      4500 IN A		4.4.4.4
ns2.child.richland.cc.il.us.		      4500 IN A		5.5.5.5
ds3.richland.cc.il.us.			      43200 IN CNAME	gw1.richland.cc.il.us.
foo.cc.il.us.	                      4500	IN	A	10.10.10.10
gw1.richland.cc.il.us.			      43200 IN A	64.107.104.3
gw2.richland.cc.il.us.			      43200 IN A	64.107.104.4
gw3.richland.cc.il.us.			      43200 IN A	64.107.104.5
gw4.richland.cc.il.us.			      43200 IN A	64.107.104.59
ns1.richland.cc.il.us.			      43200 IN A	64.107.104.28
ns1.richland.cc.il.us.			      43200 IN A	64.107.104.29
ns2.richland.cc.il.us.			      43200 IN A	64.107.104.12

;; Query time: 64 msec
;; SERVER: 64.107.104.12#53(64.107.104.12)
;; WHEN: Thu May 14 15:13:43 PDT 2020
;; XFR size: 16 records (messages 1, bytes 415)
"%string.
Definition ccil_2 : string := "child.richland.cc.il.us. 	3600	IN	SOA	ns1.child.richland.cc.il.us. james.richland.edu. 19122302 10800 3600 3600000 86400
child.richland.cc.il.us.		    IN	NS ns1.child.richland.cc.il.us.
ns1.child.richland.cc.il.us.	    IN	A	4.4.4.4
ns2.child.richland.cc.il.us.	    IN	A 	5.5.5.5
child.richland.cc.il.us.		    IN	A	6.6.6.6
chicago.child.richland.cc.il.us.	    IN	A	7.7.7.8
"%string.
Definition ccil_3 : string := "child.richland.cc.il.us. 	3600	IN	SOA	ns1.child.richland.cc.il.us. james.richland.edu. 19122302 10800 3600 3600000 86400
child.richland.cc.il.us.		    IN	NS ns1.child.richland.cc.il.us.
child.richland.cc.il.us.		    IN	NS ns2.child.richland.cc.il.us.
ns1.child.richland.cc.il.us.	    IN	A	4.4.4.4
ns2.child.richland.cc.il.us.	    IN	A 	5.5.5.5
child.richland.cc.il.us.		    IN	A	6.6.6.6
chicago.child.richland.cc.il.us.	    IN	A	7.7.7.7
darwin.child.richland.cc.il.us. 	1800   IN   CNAME   uranus.child.richland.cc.il.us.
uranus.child.richland.cc.il.us. 		1800   IN   CNAME   fusion.child.richland.cc.il.us.

"%string.
Definition ccil_fs : filesystem := fun p : string => if String.eqb p "cc.il.us..txt"%string then Some ccil_0 else if String.eqb p "richland.cc.il.us..txt"%string then Some ccil_1 else if String.eqb p "child.richland.cc.il.us..txt"%string then Some ccil_2 else if String.eqb p "child.richland.cc.il.us.-2.txt"%string then Some ccil_3 else None.
Definition ccil_md : metadata := mkMD (Some ["us.illinois.net."%string]) (Some [mkZJ (Some "cc.il.us..txt"%string) (Some "us.illinois.net."%string) None;
  mkZJ (Some "richland.cc.il.us..txt"%string) (Some "ns1.richland.cc.il.us."%string) (Some "richland.cc.il.us."%string);
  mkZJ (Some "child.richland.cc.il.us..txt"%string) (Some "ns1.child.richland.cc.il.us."%string) None;
  mkZJ (Some "child.richland.cc.il.us.-2.txt"%string) (Some "ns2.child.richland.cc.il.us."%string) None]).
Definition ccil_ctx := Eval vm_compute in set_context ccil_fs ccil_md false dc_init.
Definition ccil_jobs : list job_json := [mkJJ "child.richland.cc.il.us."%string false [mkPJ "DelegationConsistency"%string None [] 0%Z];
   mkJJ "gw1.richland.cc.il.us."%string false [mkPJ "ResponseConsistency"%string (Some ["A"%string]) [] 0%Z;
      mkPJ "ResponseValue"%string (Some ["A"%string]) ["64.107.104.4"%string] 0%Z];
   mkJJ "child.richland.cc.il.us."%string true [mkPJ "ResponseConsistency"%string (Some ["A"%string; "MX"%string]) [] 0%Z;
      mkPJ "RewriteBlackholing"%string None [] 0%Z];
   mkJJ "ds3.richland.cc.il.us."%string false [mkPJ "ResponseReturned"%string (Some ["CNAME"%string; "A"%string]) [] 0%Z];
   mkJJ "cc.il.us."%string true [mkPJ "QueryRewrite"%string None ["illinois.net."%string; "cc.il.us."%string] 0%Z;
      mkPJ "Rewrites"%string None [] (1)%Z;
      mkPJ "AllAliases"%string None ["gw1.richland.cc.il.us."%string] 0%Z;
      mkPJ "NameserverContact"%string None ["edu."%string; "net."%string; "cc.il.us."%string] 0%Z;
      mkPJ "LameDelegation"%string None [] 0%Z;
      mkPJ "StructuralDelegationConsistency"%string None [] 0%Z;
      mkPJ "ZeroTTL"%string None [] 0%Z;
      mkPJ "DNAMESubstitutionCheck"%string None [] 0%Z]].
Definition bank_0 : string := "$ORIGIN com.
com.     14400   IN  SOA	    a.gtld-servers.net.
mybankcard.com.     14400   IN  NS      ns1.fnni.com.
mybankcard.com.     14400   IN  NS      ns2.fnni.net.
ns1.fnni.com. 	    14400   IN  A       216.205.207.204
"%string.
Definition bank_1 : string := "$ORIGIN mybankcard.com.

mybankcard.com. 14400   IN  SOA	    ns1.fnni.com.
mybankcard.com. 14400   IN  NS 	    ns1.fnni.com.
mybankcard.com. 14400   IN  NS 	    ns2.fnni.net.
mybankcard.com. 14400   IN  DNAME   bankcard.com.
"%string.
Definition bank_2 : string := "$ORIGIN bankcard.com.

bankcard.com. 14400     IN  SOA	    ns1.fnni.com.
www.bankcard.com. 14400     IN  AAAA 	74d7::b94d:d07 
www.bankcard.com. 14400     IN  A 	    204.58.233.75
email.bankcard.com. 14400   IN  A 	    66.161.21.26
*.bankcard.com.     14400   IN  A 	    204.58.233.244
"%string.
Definition bank_3 : string := "$ORIGIN mybankcard.com.

mybankcard.com. 14400   IN SOA	    ns2.fnni.net.
mybankcard.com. 14400   IN NS 	    ns1.fnni.com.
mybankcard.com. 14400   IN NS 	    ns2.fnni.net.
mybankcard.com. 14400   IN DNAME    bankcard.com.
"%string.
Definition bank_4 : string := "$ORIGIN bankcard.com.

bankcard.com.   14400   IN  SOA	    ns2.fnni.net.
www.bankcard.com.   14400   IN  AAAA 	74d7::b94d:d07 
www.bankcard.com.   14400   IN  A 	    204.58.233.75
email.bankcard.com. 14400   IN  A 	    66.161.21.26
*.bankcard.com.     14400   IN  CNAME 	www.bankcard.com.
"%string.
Definition bank_fs : filesystem := fun p : string => if String.eqb p "a.gtld-servers.net.txt"%string then Some bank_0 else if String.eqb p "ns1.fnni.com.1.txt"%string then Some bank_1 else if String.eqb p "ns1.fnni.com.2.txt"%string then Some bank_2 else if String.eqb p "ns2.fnni.net.1.txt"%string then Some bank_3 else if String.eqb p "ns2.fnni.net.2.txt"%string then Some bank_4 else None.
Definition bank_md : metadata := mkMD (Some ["a.gtld-servers.net."%string]) (Some [mkZJ (Some "a.gtld-servers.net.txt"%string) (Some "a.gtld-servers.net."%string) (Some "com."%string);
  mkZJ (Some "ns1.fnni.com.1.txt"%string) (Some "ns1.fnni.com."%string) (Some "mybankcard.com."%string);
  mkZJ (Some "ns1.fnni.com.2.txt"%string) (Some "ns1.fnni.com."%string) (Some "bankcard.com."%string);
  mkZJ (Some "ns2.fnni.net.1.txt"%string) (Some "ns2.fnni.net."%string) (Some "mybankcard.com."%string);
  mkZJ (Some "ns2.fnni.net.2.txt"%string) (Some "ns2.fnni.net."%string) (Some "bankcard.com."%string)]).
Definition bank_ctx := Eval vm_compute in set_context bank_fs bank_md false dc_init.
Definition bank_jobs : list job_json := [mkJJ "support.mybankcard.com"%string false [mkPJ "ResponseConsistency"%string (Some ["A"%string]) [] 0%Z;
      mkPJ "ResponseValue"%string (Some ["A"%string]) ["204.58.233.244"%string] 0%Z]].
Definition simple_0 : string := "foo.com.				      14400 IN SOA	us.illinois.net. us-domain.illinois.net. 2018083000 14400 3600 2419200 14400

foo.com.                    14400 IN NS     ns1.foo.com.
foo.com.                    14400 IN NS	    ns2.foo.com.
foo.com.                    14400 IN NS	    ns3.foo.com.
ns1.foo.com.                14400 IN A	    66.158.49.3
ns2.foo.com.                14400 IN A	    66.158.49.4
a.foo.com.                  14400 IN DNAME	b.foo.com.
b.foo.com.                  14400 IN DNAME	c.foo.com.
c.foo.com.                  14400 IN DNAME	d.foo.com.
d.foo.com.                  14400 IN DNAME	e.foo.com.
*.e.foo.com.                14400 IN CNAME	finally.foo.com.
finally.foo.com.            14400 IN A  	1.2.3.4
finally.foo.com.            14400 IN CNAME  finally1.foo.com. ;ignored
"%string.
Definition simple_fs : filesystem := fun p : string => if String.eqb p "foo.com.txt"%string then Some simple_0 else None.
Definition simple_md : metadata := mkMD (Some ["us.illinois.net."%string]) (Some [mkZJ (Some "foo.com.txt"%string) (Some "us.illinois.net."%string) None]).
Definition simple_ctx := Eval vm_compute in set_context simple_fs simple_md true dc_init.
Definition simple_jobs : list job_json := [mkJJ "foo.com."%string true [mkPJ "Rewrites"%string None [] (4)%Z];
   mkJJ "x.a.foo.com."%string false [mkPJ "ResponseValue"%string (Some ["A"%string]) ["1.2.3.4"%string] 0%Z]].

Definition get_ctx (r : res (driver_ctx * nat * list glue_issue)) : driver_ctx :=
  match r with Ok (d, _, _) => d | _ => dc_init end.
Definition get_num (r : res (driver_ctx * nat * list glue_issue)) : nat :=
  match r with Ok (_, n, _) => n | _ => 0 end.
Definition count_of (k : string) (d : driver_ctx) : nat :=
  match assoc_str k (dc_counts d) with Some n => n | None => 0 end.

(** total EC count over all jobs *)
Definition total_ecs (d : driver_ctx) (js : list job_json) : res nat :=
  do r <- foldM (fun (acc : job * nat) u =>
      do j <- set_job (fst acc) u ;
      do x <- run_job 100 d j ;
      Ok (j, snd acc + snd x)) js (job_init, 0) ;
  Ok (snd r).
Definition summary (d : driver_ctx) (js : list job_json) : option (nat * nat) :=
  match total_ecs d js, run_jobs 100 d (Some js) with Ok n, Ok vs => Some (n, length vs) | _, _ => None end.

(** test/main-example-test.cpp:22-40 *)
Example ccil_records : get_num ccil_ctx = 140. Proof. vm_compute. reflexivity. Qed.
Example ccil_label_graph :
  (length (l_verts (dc_lgraph (get_ctx ccil_ctx))), length (l_edges (dc_lgraph (get_ctx ccil_ctx)))) = (70, 70).
Proof. vm_compute. reflexivity. Qed.
Example ccil_counts :
  (count_of "Wildcard" (get_ctx ccil_ctx), count_of "DNAME" (get_ctx ccil_ctx), count_of "CNAME" (get_ctx ccil_ctx)) = (1, 1, 5).
Proof. vm_compute. reflexivity. Qed.
Example ccil_jobs_summary : summary (get_ctx ccil_ctx) ccil_jobs = Some (176, 19).
Proof. vm_compute. reflexivity. Qed.
(** test/main-example-test.cpp:44-57 (ig_expected.dot: 17 vertices, 12 edges) *)
Example ccil_igraph :
  match build_igraph 100 (dc_ctx (get_ctx ccil_ctx)) (mkEC None (string_to_labels "ds3.trial.cc.il.us.") (bs_of [RT_A]) false) with
  | Ok g => (length (i_verts g), length (i_edges g)) = (17, 12)
  | _ => False end.
Proof. vm_compute. reflexivity. Qed.
(** test/main-example-test.cpp:59-88 *)
Example ccil_default :
  match run_job 100 (get_ctx ccil_ctx) (set_job_default job_init ".") with
  | Ok (vs, _, n) => (n, length (json_consume [] vs)) = (167, 58)
  | _ => False end.
Proof. vm_compute. reflexivity. Qed.

(** test/bankcardTest.cpp *)
Example bank_counts :
  (get_num bank_ctx, map (fun k => count_of k (get_ctx bank_ctx)) ["DNAME"; "CNAME"; "A"; "NS"; "SOA"; "AAAA"]%string)
  = (22, [2; 1; 6; 6; 5; 2]).
Proof. vm_compute. reflexivity. Qed.
Example bank_jobs_summary : option_map snd (summary (get_ctx bank_ctx) bank_jobs) = Some 2.
Proof. vm_compute. reflexivity. Qed.

(** test/integration-test.cpp *)
Example simple_jobs_result :
  run_jobs 100 (get_ctx simple_ctx) (Some simple_jobs)
  = Ok [to_json (VRewrites "*.a.foo.com." 5 4%Z); to_json (VRewrites "~{ }.a.foo.com." 5 4%Z)].
Proof. vm_compute. reflexivity. Qed.
Example simple_lint :
  (map (fun x => li_violation (snd x)) (dc_lint (get_ctx simple_ctx)),
   match simple_ctx with Ok (_, _, gi) => map gi_violation gi | _ => [] end)
  = (["CNAME AND OTHER TYPES"%string], ["Missing Glue Record"%string]).
Proof. vm_compute. reflexivity. Qed.

Definition parser_txt : string := "0-24.net.	86400   IN	SOA     ns0.0-24.net. ho\(stmaster.0-24.net. 2020032302 43200 7200 1209600 86400
0-24.net.	86400	in	ds	33276 10 2 (ea6157493f31285336187856a092c7a6041c0103ea4a61762c47fd161374bcdd ) 
0-24.net.	86400	IN	rrsig	ds	8	2	86400	20190804054429	20190728043429	59540	net.	Q7NqAuuAGQvYkMmoD4BcE9oYw2i9oSutcC4Omb7l5T9t+Fhi3qkwaQSHtu5qdZBHzZ2VMwMOdfHRZO41AJgUm4X9E1O/Z2yE0E6DUUkMTgRRE5ZNb3hubnM+3fEk6ZAZY21Z+VklqsGLYsMvh/U6yRq267Xe/65EXazdM653/N/7picDZE2qPnZd4pZ3azRJ9kz7K47t3Ga/oOV7h3Abhg==
0-24.net.	172800	in	TXT	""serving your domain :)""
mybank		IN	DNAME	bank
foo			A	1.1.1.1
bar		IN	300	A	2.2.2.2
				A	3.3.3.3
"%string.
(** test/zone-graph-test.cpp parser test: 8 records, zone 6 vertices / 5 edges, label graph 7 / 7 *)
Example parser_test :
  match parse_zone_file dc_init "f" parser_txt "ns" "" false with
  | Ok (d, n) => match assoc_nat 1 (c_zones (dc_ctx d)) with
                 | Some z => (n, length (z_verts z), length (z_edges z), length (l_verts (dc_lgraph d)), length (l_edges (dc_lgraph d)))
                             = (8, 6, 5, 7, 7)
                 | None => False end
  | _ => False end.
Proof. vm_compute. reflexivity. Qed.
