(** Specification: the documents which serde reads as values of the crates. *)
From Verif Require Import Base MpcAtoms MpcTree MpcBlock Schemes Api SpecText Serde.
Local Open Scope nat_scope.
Local Open Scope string_scope.

(** The values which a document gives for the [keys]: a map gives every key at most once (and any other keys, in any order);
    a list gives a value for every key, in order. *)
Definition members (keys : list string) (d : doc) (vals : list (option doc)) : Prop :=
  match d with
  | JMap es => Forall2 (fun k v => map snd (filter (fun e => String.eqb k (fst e)) es) = match v with Some x => [x] | None => [] end)%list keys vals
  | JList l => length l = length keys /\ vals = map Some l
  | _ => False
  end.
(** A variant without content, with the name [s] *)
Definition named_variant (s : string) (d : doc) : Prop := d = JText s \/ d = JMap [(s, JNull)].

(** An id: 64 hexadecimal digits, of either case *)
Definition is_id (x : bytes32) (d : doc) : Prop := exists s, d = JText s /\ hex_of (b32 x) (lower s).
Definition is_num (bits : N) (n : N) (d : doc) : Prop := d = JNum n /\ (n < 2 ^ bits)%N.
(** A depth: below 32, or below 256 if the type u5 does not check *)
Definition is_depth (ck : bool) (n : nat) (d : doc) : Prop := d = JNum (N.of_nat n) /\ n < (if ck then 32 else 256).
Definition is_list {A} (is : A -> doc -> Prop) (l : list A) (d : doc) : Prop := exists ds, d = JList ds /\ Forall2 is l ds.

Definition is_method (m : method) (d : doc) : Prop := named_variant "sha256t" d.
Definition is_convolve_error (e : convolve_verify_error) (d : doc) : Prop :=
  named_variant match e with CvCommitmentMismatch => "commitmentMismatch" | CvImpossibleMessage => "impossibleMessage" | CvInvalidProof => "invalidProof" end d.
Definition is_invalid_proof (e : invalid_proof) (d : doc) : Prop := exists p x a w,
  members ["protocolId"; "expected"; "actual"; "width"] d [Some p; Some x; Some a; Some w] /\
  is_id (ip_protocol_id e) p /\ is_num 32 (ip_expected e) x /\ is_num 32 (ip_actual e) a /\ is_num 32 (ip_width e) w.
Definition is_node (ck : bool) (n : tree_node) (d : doc) : Prop :=
  match n with
  | ConcealedNode k h => exists c dk dh, d = JMap [("ConcealedNode", c)] /\ members ["depth"; "hash"] c [Some dk; Some dh] /\
      is_depth ck k dk /\ is_id h dh
  | CommitmentLeaf p m => exists c dp dm, d = JMap [("CommitmentLeaf", c)] /\ members ["protocol_id"; "message"] c [Some dp; Some dm] /\
      is_id p dp /\ is_id m dm
  end.
Definition is_concealed (ck : bool) (c : merkle_concealed) (d : doc) : Prop := exists dd dc dr,
  members ["depth"; "cofactor"; "merkleRoot"] d [Some dd; Some dc; Some dr] /\
  is_depth ck (mc_depth c) dd /\ is_num 16 (mc_cofactor c) dc /\ is_id (mc_merkle_root c) dr.
Definition is_block (ck : bool) (b : merkle_block) (d : doc) : Prop := exists dm dd dc dx de,
  members ["method"; "depth"; "cofactor"; "cross_section"; "entropy"] d [Some dm; Some dd; Some dc; Some dx; de] /\
  is_method (mb_method b) dm /\ is_depth ck (mb_depth b) dd /\ is_num 16 (mb_cofactor b) dc /\
  is_list (is_node ck) (mb_cross_section b) dx /\
  (ck = true -> 1 <= N.of_nat (length (mb_cross_section b)) < 2 ^ 32)%N /\
  match mb_entropy b with Some e => exists x, de = Some x /\ is_num 64 e x | None => de = None \/ de = Some JNull end.
Definition is_proof (ck : bool) (p : merkle_proof) (d : doc) : Prop := exists dm dp dc dx,
  members ["method"; "pos"; "cofactor"; "path"] d [Some dm; Some dp; Some dc; Some dx] /\
  is_method (mp_method p) dm /\ is_num 32 (mp_pos p) dp /\ is_num 16 (mp_cofactor p) dc /\
  is_list is_id (mp_path p) dx /\ (ck = true -> length (mp_path p) <= 32)%nat.
Definition is_status {A B C D} (ia : A -> doc -> Prop) (ib : B -> doc -> Prop) (ic : C -> doc -> Prop) (id : D -> doc -> Prop)
    (s : @status A B C D) (d : doc) : Prop := exists da db dc dd,
  members ["seal_issues"; "failures"; "warnings"; "info"] d [Some da; Some db; Some dc; Some dd] /\
  is_list ia (seal_issues s) da /\ is_list ib (failures s) db /\ is_list ic (warnings s) dc /\ is_list id (info s) dd.
Definition is_witness {P C} (ip : P -> doc -> Prop) (ic : C -> doc -> Prop) (w : P * C) (d : doc) : Prop := exists dp dc,
  members ["published"; "client"] d [Some dp; Some dc] /\ ip (fst w) dp /\ ic (snd w) dc.

(** The function [read] reads exactly the documents [is]. *)
Definition reads {A} (read : doc -> option A) (is : A -> doc -> Prop) : Prop := forall d x, read d = Some x <-> is x d.
(** What [write] writes for good values is among them *)
Definition writes {A} (write : A -> doc) (good : A -> Prop) (is : A -> doc -> Prop) : Prop := forall x, good x -> is x (write x).
