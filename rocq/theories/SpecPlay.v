(** Specification: an adversary who chooses pairs of sets of messages, asks in any order for openings of the first or of the second
    sets, and guesses which. *)
From Verif Require Import Base MpcAtoms MpcTree MpcBlock SpecValid SpecGame SpecHideGame SpecTalk SpecMany.
Local Open Scope nat_scope.

(** Any computation which may ask for hashes, hand over pairs of sets of messages, and ask for proofs, partially revealed blocks and
    the commitment of the [i]th pair handed over; what it asks for may depend on all answers so far. *)
Inductive play : Type :=
| PlayEnd (a : bool)
| PlayHash (s : list byte) (k : bytes32 -> play)
| PlayPair (v w : multi_source) (k : play)
| PlayOpen (i : nat) (o : opening) (k : opened -> play).

(** The computation ends with this answer if the first (second) sets are committed to: the trees so far are [ts], the entropies to
    come are [es] in order. *)
Inductive played (H : Hasher) (first : bool) : list N -> list merkle_tree -> play -> bool -> Prop :=
| pl_end es ts a : played H first es ts (PlayEnd a) a
| pl_hash es ts s k a : played H first es ts (k (H s)) a -> played H first es ts (PlayHash s k) a
| pl_pair e es ts v w k t a : try_commit (if first then v else w) (Some e) = Ret (Ok t) ->
    played H first es (ts ++ [t]) k a -> played H first (e :: es) ts (PlayPair v w k) a
| pl_open es ts i o k t x a : nth_error ts i = Some t -> gives H t o x ->
    played H first es ts (k x) a -> played H first es ts (PlayOpen i o k) a.

(** A source which can be committed to in a tree of depth at most [D], and whose entropy is drawn *)
Definition fit (D : nat) (src : multi_source) : Prop :=
  valid_source src /\ ms_static_entropy src = None /\ exists t, try_commit src (Some 0%N) = Ret (Ok t) /\ mt_depth t <= D.

(** At most [q] hashes of at most [n] bytes, at most [v] openings and at most [r] pairs. The two sets of a pair are arbitrary, but each
    opening is one which looks the same for both. *)
Fixpoint orderly (n D q v r : nat) (ps : list (multi_source * multi_source)) (p : play) {struct p} : Prop :=
  match p with
  | PlayEnd _ => True
  | PlayHash s k => match q with O => False | S q' => length s <= n /\ forall a, orderly n D q' v r ps (k a) end
  | PlayPair a b k => match r with O => False | S r' => fit D a /\ fit D b /\ orderly n D q v r' (ps ++ [(a, b)]) k end
  | PlayOpen i o k =>
      match v with
      | O => False
      | S v' => (exists a b, nth_error ps i = Some (a, b) /\ alike D (names o) a b) /\ forall x, orderly n D q v' r ps (k x)
      end
  end.

(** The adversary ends with "yes"; the entropies and the answers of the hash function are [ef]. *)
Definition guesses_play (U : list (list byte)) (r : nat) (first : bool) (p : play) (ef : list N * list bytes32) : Prop :=
  let '(es, f) := ef in
  length f = length U /\ length es = r /\ Forall (fun e => (e < 2 ^ 64)%N) es /\ played (table U f) first es [] p true.
