(** Specification: an adversary who sees the ids of values with secrets and asks for the secrets of some of them. *)
From Verif Require Import Base Strict Engine SpecHash SpecCodec SpecEngine SpecGame SpecIdGame SpecSalt.
Local Open Scope nat_scope.

(** Any computation which may ask for hashes and for secrets; what it asks for may depend on all answers so far. *)
Inductive inquiry : Type :=
| Conclude (a : bool)
| InquireHash (s : list byte) (k : bytes32 -> inquiry)
| InquireSecret (i : nat) (k : N -> inquiry).

(** The computation ends with this answer and asks for no secrets but those of the values at the places [open]. *)
Inductive concludes (H : Hasher) (open : list nat) (es : list N) : inquiry -> bool -> Prop :=
| co_end a : concludes H open es (Conclude a) a
| co_hash s k a : concludes H open es (k (H s)) a -> concludes H open es (InquireHash s k) a
| co_secret i e k a : In i open -> nth_error es i = Some e -> concludes H open es (k e) a -> concludes H open es (InquireSecret i k) a.

(** At most [q] hashes, of at most [n] bytes; any number of secrets *)
Fixpoint discreet (n q : nat) (p : inquiry) {struct p} : Prop :=
  match p with
  | Conclude _ => True
  | InquireHash s k => match q with O => False | S q' => length s <= n /\ forall a, discreet n q' (k a) end
  | InquireSecret i k => forall e, discreet n q (k e)
  end.

(** The adversary is given the ids of the values and ends with "yes", having asked only for secrets at the places [open]. *)
Definition guesses_open (U : list (list byte)) (md : mode) (S : N) (open : list nat) (vs : list secret_value) (A : list bytes32 -> inquiry)
  (ef : list N * list bytes32) : Prop :=
  let '(es, f) := ef in
  length f = length U /\ Forall (fun e => (e < S)%N) es /\
  exists ids, ids_with (table U f) md vs es ids /\ concludes (table U f) open es (A ids) true.
