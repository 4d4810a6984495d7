(** Spec_Utils.v -- what the name and record helpers are supposed to compute,
    stated without reference to the model's functions. *)
From Verif Require Import Base.
From Coq Require Import Sorting.Sorted.

(** A label as it may appear in the dotted form: not empty, every dot except one
    in first position is preceded by a backslash, and it does not end in a
    backslash. *)
Definition well_formed_label (l : label) : Prop :=
  l <> ""%string
  /\ (forall i, String.get (S i) l = Some "."%char -> String.get i l = Some "\"%char)
  /\ (forall i, String.get i l = Some "\"%char -> String.get (S i) l <> None).

(** d is s or an ancestor of s (names are stored from the top-level label down) *)
Definition ancestor_or_self (d s : name) : Prop := exists below, s = d ++ below.

(** octets of the dotted text with the final dot *)
Definition text_length (n : name) : nat := list_sum (map (fun l => String.length l + 1) n).

(** multiplicity of a record in a list, records compared by owner, type and data *)
Definition same_record (a b : rr) : Prop :=
  rr_name a = rr_name b /\ rr_type a = rr_type b /\ rr_rdata a = rr_rdata b.
Inductive occurs (r : rr) : nat -> list rr -> Prop :=
| occ_nil : occurs r 0 []
| occ_yes : forall k x l, same_record r x -> occurs r k l -> occurs r (S k) (x :: l)
| occ_no  : forall k x l, ~ same_record r x -> occurs r k l -> occurs r k (x :: l).

(** [subseq a b]: a is obtained from b by deleting elements, order kept *)
Inductive subseq {A} : list A -> list A -> Prop :=
| ss_nil  : subseq [] []
| ss_keep : forall x a b, subseq a b -> subseq (x :: a) (x :: b)
| ss_drop : forall x a b, subseq a b -> subseq a (x :: b).

(** the official mnemonic of each type *)
Definition mnemonics : list (rrtype * string) :=
  [(RT_A, "A"); (RT_NS, "NS"); (RT_CNAME, "CNAME"); (RT_DNAME, "DNAME"); (RT_SOA, "SOA");
   (RT_PTR, "PTR"); (RT_MX, "MX"); (RT_TXT, "TXT"); (RT_AAAA, "AAAA"); (RT_SRV, "SRV");
   (RT_RRSIG, "RRSIG"); (RT_NSEC, "NSEC"); (RT_SPF, "SPF")]%string.

(** strictly increasing in the byte-wise order *)
Definition str_lt (a b : string) : Prop := String.compare a b = Lt.
Definition strictly_sorted : list string -> Prop := StronglySorted str_lt.
