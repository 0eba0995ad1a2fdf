(** Specification: an adversary who chooses pairs of values with secrets, is given the ids of the first or of the second ones,
    and guesses which. *)
From Verif Require Import Base Strict Engine SpecHash SpecCodec SpecEngine SpecGame SpecIdGame SpecSalt.
Local Open Scope nat_scope.

(** A value with a secret, and the tag and the bytes it commits to *)
Record described_value := DescribedValue {
  dv_value : secret_value;
  dv_tag : list byte;
  dv_bytes : N -> list byte
}.

(** Any computation which may ask for hashes and for ids; what it asks for may depend on all answers so far. *)
Inductive dialogue : Type :=
| Verdict (a : bool)
| AskHash (s : list byte) (k : bytes32 -> dialogue)
| AskPair (v w : described_value) (k : bytes32 -> dialogue).

(** The computation ends with this answer if it is given the ids of the first (second) values, with the secrets [es] in order. *)
Inductive replies (H : Hasher) (md : mode) (first : bool) : list N -> dialogue -> bool -> Prop :=
| re_end es a : replies H md first es (Verdict a) a
| re_hash es s k a : replies H md first es (k (H s)) a -> replies H md first es (AskHash s k) a
| re_pair e es v w k id a : let x := dv_value (if first then v else w) in
    @commit_id H _ md (sv_commit x H) (sv_value x e) = Ret id ->
    replies H md first es (k id) a -> replies H md first (e :: es) (AskPair v w k) a.

(** At most [q] hashes of at most [n] bytes; at most [r] pairs, all of values whose secrets change the bytes committed to *)
Fixpoint fair (n : nat) (md : mode) (S : N) (q r : nat) (p : dialogue) {struct p} : Prop :=
  match p with
  | Verdict _ => True
  | AskHash s k => match q with O => False | Datatypes.S q' => length s <= n /\ forall a, fair n md S q' r (k a) end
  | AskPair v w k =>
      match r with
      | O => False
      | Datatypes.S r' =>
          salted_by n md S (dv_value v) (dv_tag v) (dv_bytes v) /\ salted_by n md S (dv_value w) (dv_tag w) (dv_bytes w) /\
          forall id, fair n md S q r' (k id)
      end
  end.

(** The adversary ends with "yes"; the secrets and the answers of the hash function are [ef]. *)
Definition guesses_side (U : list (list byte)) (md : mode) (S : N) (r : nat) (first : bool) (p : dialogue) (ef : list N * list bytes32) : Prop :=
  let '(es, f) := ef in
  length f = length U /\ length es = r /\ Forall (fun e => (e < S)%N) es /\ replies (table U f) md first es p true.
