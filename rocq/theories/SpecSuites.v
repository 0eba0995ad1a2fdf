(** Specification: what the suites for commitment schemes check. *)
From Verif Require Import Base Schemes SpecText.
Local Open Scope nat_scope.

Definition decides {A} (eq : A -> A -> bool) : Prop := forall a b, eq a b = true <-> a = b.
(** [a] is before [b] in the list. *)
Definition precedes {A} (l : list A) (a b : A) : Prop := exists x y z, l = x ++ a :: y ++ b :: z.

(** Different messages have different commitments. *)
Definition commit_sound {Msg Cmt} (I : commit_verify Msg Cmt) (messages : list Msg) : Prop :=
  NoDup messages /\ forall a b, In a messages -> In b messages -> cv_commit I a = cv_commit I b -> a = b.
(** Every message can be committed to, the commitment with its proof verifies for this message alone, and an earlier
    commitment does not verify with it. *)
Definition embed_sound {Msg Cont Proof E} (I : embed_scheme Msg Cont Proof E) (messages : list Msg) (container : Cont) : Prop :=
  (forall a, In a messages -> exists c p, em_commit I container a = Ok (c, p) /\
     forall b, In b messages -> em_verify I c b p = Ok tt <-> b = a) /\
  (forall a b ca pa cb pb, precedes messages a b -> em_commit I container a = Ok (ca, pa) -> em_commit I container b = Ok (cb, pb) ->
     em_verify I ca b pb <> Ok tt).
(** the supplement given by the suite: 32 bytes 255 *)
Definition all_ff : bytes32 := B32 (repeat xff 32) eq_refl.
(** Every message can be committed to, and the commitment verifies for this message alone. *)
Definition convolve_sound {Msg Src Cmt E} (I : convolve_scheme Msg Src bytes32 Cmt bytes32 E) (messages : list Msg) (container : Src) : Prop :=
  NoDup messages /\
  forall a, In a messages -> exists c p, cc_commit I container all_ff a = Ok (c, p) /\
    forall b, In b messages -> cc_verify I all_ff b c = Ok tt <-> b = a.
(** What the convolution of the test module hashes for a message: the supplement, the length in 4 bytes, the message *)
Definition dummy_pre (m : list byte) : list byte := repeat xff 32 ++ le 4 (N.of_nat (length m) mod 2 ^ 32) ++ m.
(** lib.rs:190-222, the comments: an empty message, a zero byte, a text and the text with an asterisk added, some bytes
    with a zero byte added behind and before them, a public key in hexadecimal and in binary, another public key *)
Definition as_documented (messages : list (list byte)) : Prop := exists text bin hex key other,
  messages = [[]; [x00]; text; text ++ [x2a]; bin; bin ++ [x00]; x00 :: bin; list_byte_of_string hex; key; other] /\ text <> [] /\ bin <> [] /\ hex_of key hex /\ length key = 33 /\ length other = 33 /\ key <> other.
