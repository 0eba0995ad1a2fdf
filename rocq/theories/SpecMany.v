(** Specification: an adversary who asks for proofs and blocks of any number of commitments. *)
From Verif Require Import Base OrdMap MpcAtoms MpcTree MpcBlock SpecValid SpecGame SpecViewGame SpecBlockGame SpecTalk.
Local Open Scope nat_scope.

(** As [talk]; each opening is of the commitment with the number [i]. *)
Inductive talks : Type :=
| Says (a : bool)
| TalksHash (s : list byte) (k : bytes32 -> talks)
| TalksOpen (i : nat) (o : opening) (k : opened -> talks).

Inductive ends_all (H : Hasher) (ts : list merkle_tree) : talks -> bool -> Prop :=
| all_say a : ends_all H ts (Says a) a
| all_hash s k a : ends_all H ts (k (H s)) a -> ends_all H ts (TalksHash s k) a
| all_open i t o x k a : nth_error ts i = Some t -> gives H t o x -> ends_all H ts (k x) a -> ends_all H ts (TalksOpen i o k) a.

(** At most [q] hashes of at most [n] bytes and at most [v] openings; those of the commitment [i] name only protocols
    of the [i]th list. *)
Fixpoint polite_all (idss : list (list bytes32)) (n q v : nat) (p : talks) {struct p} : Prop :=
  match p with
  | Says _ => True
  | TalksHash s k => match q with O => False | S q' => length s <= n /\ forall a, polite_all idss n q' v (k a) end
  | TalksOpen i o k =>
      match v with
      | O => False
      | S v' => (exists ids, nth_error idss i = Some ids /\ incl (names o) ids) /\ forall x, polite_all idss n q v' (k x)
      end
  end.

(** The sources are committed to with these entropies. *)
Inductive commit_each : list multi_source -> list N -> list merkle_tree -> Prop :=
| commit_none : commit_each [] [] []
| commit_more src e t srcs es ts : (e < 2 ^ 64)%N -> try_commit src (Some e) = Ret (Ok t) -> commit_each srcs es ts ->
    commit_each (src :: srcs) (e :: es) (t :: ts).

(** The adversary ends with "yes"; the entropies and the answers of the hash function are [ef]. *)
Definition guesses_all (U : list (list byte)) (srcs : list multi_source) (A : talks) (ef : list N * list bytes32) : Prop :=
  let '(es, f) := ef in
  length f = length U /\ exists ts, commit_each srcs es ts /\ ends_all (table U f) ts A true.

(** The two sources can be told apart neither by the shown messages nor by the shape of the tree, and what is concealed
    is blinded or the same. *)
Definition alike (D : nat) (ids : list bytes32) (src1 src2 : multi_source) : Prop :=
  valid_source src1 /\ valid_source src2 /\ ms_static_entropy src1 = None /\ ms_static_entropy src2 = None /\
  ms_method src1 = ms_method src2 /\
  (forall p, In p ids -> exists m, In (p, m) (ms_messages src1) /\ In (p, m) (ms_messages src2)) /\
  exists t1 t2, try_commit src1 (Some 0%N) = Ret (Ok t1) /\ try_commit src2 (Some 0%N) = Ret (Ok t2) /\
    mt_depth t1 = mt_depth t2 /\ mt_cofactor t1 = mt_cofactor t2 /\ mt_depth t1 <= D /\ screened_block t1 t2 ids.
Inductive alike_each (D : nat) : list (list bytes32) -> list multi_source -> list multi_source -> Prop :=
| alike_none : alike_each D [] [] []
| alike_more ids src1 src2 idss srcs1 srcs2 : alike D ids src1 src2 -> alike_each D idss srcs1 srcs2 ->
    alike_each D (ids :: idss) (src1 :: srcs1) (src2 :: srcs2).
