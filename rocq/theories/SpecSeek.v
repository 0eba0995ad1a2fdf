(** Specification: an adversary who looks for one concealed message, knowing everything else, or for a property of it. *)
From Verif Require Import Base OrdMap MpcAtoms MpcTree MpcBlock SpecCommit SpecGame SpecTalk SpecMany.
Local Open Scope nat_scope.

(** Any computation which may ask for hashes and for openings of the commitment with the number [i], ending with an answer *)
Inductive seek (A : Type) : Type :=
| SeekEnd (a : A)
| SeekHash (s : list byte) (k : bytes32 -> seek A)
| SeekOpen (i : nat) (o : opening) (k : opened -> seek A).
Arguments SeekEnd {A}. Arguments SeekHash {A}. Arguments SeekOpen {A}.

Inductive sought {A} (H : Hasher) (ts : list merkle_tree) : seek A -> A -> Prop :=
| sought_end a : sought H ts (SeekEnd a) a
| sought_hash s k a : sought H ts (k (H s)) a -> sought H ts (SeekHash s k) a
| sought_open i t o x k a : nth_error ts i = Some t -> gives H t o x -> sought H ts (k x) a -> sought H ts (SeekOpen i o k) a.

(** The source with the message [m] for the protocol [p] instead of the one it has *)
Definition retold (p m : bytes32) (src : multi_source) : multi_source :=
  MultiSource (ms_method src) (ms_min_depth src)
    (map (fun e => if b32_eqb (fst e) p then (fst e, m) else e) (ms_messages src)) (ms_static_entropy src).

(** At most [q] hashes; any number of openings, which reveal protocols of the source other than [p] *)
Fixpoint tactful {A} (srcs : list multi_source) (p : bytes32) (q : nat) (B : seek A) {struct B} : Prop :=
  match B with
  | SeekEnd _ => True
  | SeekHash s k => match q with O => False | S q' => forall a, tactful srcs p q' (k a) end
  | SeekOpen i o k =>
      (exists src, nth_error srcs i = Some src /\
         forall x, In x (names o) -> x <> p /\ exists m, In (x, m) (ms_messages src)) /\
      forall y, tactful srcs p q (k y)
  end.

(** [mf] is a message of [S] and a table of hashes; the sources, with this message for the protocol [p], are committed to
    with the entropies [es], and the adversary [B] ends with an answer which is right, that is accepted by [G]. *)
Definition told_about {A} (U : list (list byte)) (srcs : list multi_source) (es : list N) (p : bytes32) (S : list bytes32)
  (G : bytes32 -> A -> bool) (B : seek A) (mf : bytes32 * list bytes32) : Prop :=
  let '(m, f) := mf in
  In m S /\ length f = length U /\
  exists ts a, commit_each (map (retold p m) srcs) es ts /\ sought (table U f) ts B a /\ G m a = true.

(** The protocols [p] and [x] have the two slots under one node. *)
Definition side_by_side (t : merkle_tree) (p x : bytes32) : Prop :=
  exists j, let pos y := s_pos y (mt_cofactor t) (mt_depth t) in
    (pos p = 2 * j /\ pos x = 2 * j + 1 \/ pos p = 2 * j + 1 /\ pos x = 2 * j)%N.
