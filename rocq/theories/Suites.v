(** commit_verify/src/commit.rs, embed.rs: the [test_helpers] modules, i.e. the suites with which
    implementations of the commitment-scheme traits are tested; lib.rs: their messages. *)
From Verif Require Import Base OrdMap Strict Digest Merkle MpcAtoms MpcTree Schemes.
Local Open Scope nat_scope.

(** [Iterator::for_each] with a closure which may panic *)
Fixpoint for_each {A} (f : A -> outcome unit) (l : list A) : outcome unit :=
  match l with
  | [] => Ret tt
  | x :: r => f x ;;; for_each f r
  end.
(** [Iterator::fold] with a closure which may panic *)
Fixpoint fold_out {A B} (f : B -> A -> outcome B) (l : list A) (acc : B) : outcome B :=
  match l with
  | [] => Ret acc
  | x :: r => acc' <- f acc x ;; fold_out f r acc'
  end.
(** [Result::is_ok], [Result::is_err], [Result::unwrap] *)
Definition is_ok {A E} (r : result A E) : bool := match r with Ok _ => true | Err _ => false end.
Definition is_err {A E} (r : result A E) : bool := negb (is_ok r).
Definition unwrap {A E} (r : result A E) : outcome A := match r with Ok x => Ret x | Err _ => Panic PExpect end.
(** [HashSet::insert]: whether the value was new, and the set; the values are assumed to be hashed compatibly with
    [eq]. Sets are lists here: they are only searched, and walked through by [for_each] with closures which either do
    nothing or fail an assertion, so the order in which a set is walked through cannot be observed. *)
Definition set_insert {A} (eq : A -> A -> bool) (x : A) (acc : list A) : bool * list A :=
  if existsb (fun y => eq y x) acc then (false, acc) else (true, x :: acc).
(** [assert_eq!] of two Booleans *)
Definition assert_same (a b : bool) : outcome unit := assert (Bool.eqb a b).
(** the range [1..10] *)
Definition nine : list nat := [1; 2; 3; 4; 5; 6; 7; 8; 9].

(** commit.rs:90-127 [commit_verify_suite]; [meq] is [Eq] of the messages. *)
Definition commit_verify_suite {Msg Cmt} (I : commit_verify Msg Cmt) (meq : Msg -> Msg -> bool) (messages : list Msg)
  : outcome unit :=
  _acc <- fold_out (fun acc msg =>
    let commitment := cv_commit I msg in
    for_each (fun _ => assert (cv_eq I (cv_commit I msg) commitment)) nine ;;;
    assert (is_ok (cv_verify I commitment msg)) ;;;
    for_each (fun m => assert_same (is_ok (cv_verify I commitment m)) (meq m msg)) messages ;;;
    for_each (fun cmt => assert (is_err (cv_verify I cmt msg))) acc ;;;
    let '(fresh, acc') := set_insert (cv_eq I) commitment acc in
    assert fresh ;;;
    Ret acc') messages [] ;;
  Ret tt.

(** embed.rs:206-250 [embed_commit_verify_suite]. On an error of [embed_commit] the container is not used any more. *)
Definition embed_commit_verify_suite {Msg Cont Proof E} (I : embed_scheme Msg Cont Proof E) (meq : Msg -> Msg -> bool)
    (messages : list Msg) (container : Cont) : outcome unit :=
  _acc <- fold_out (fun acc msg =>
    ' (commitment, proof) <- unwrap (em_commit I container msg) ;;
    for_each (fun _ =>
      ' (commitment_prime, _) <- unwrap (em_commit I container msg) ;;
      assert (em_cont_eq I commitment_prime commitment)) nine ;;;
    assert (is_ok (em_verify I commitment msg proof)) ;;;
    for_each (fun m => assert_same (is_ok (em_verify I commitment m proof)) (meq m msg)) messages ;;;
    for_each (fun cmt => assert (is_err (em_verify I cmt msg proof))) acc ;;;
    let '(fresh, acc') := set_insert (em_cont_eq I) commitment acc in
    assert fresh ;;;
    Ret acc') messages [] ;;
  Ret tt.

(** embed.rs:204 *)
Definition SUPPLEMENT : bytes32 := b32_fill xff.

(** embed.rs:252-296 [convolve_commit_verify_suite]: proofs and supplements are arrays of 32 bytes. *)
Definition convolve_commit_verify_suite {Msg Src Cmt E} (I : convolve_scheme Msg Src bytes32 Cmt bytes32 E)
    (meq : Msg -> Msg -> bool) (messages : list Msg) (container : Src) : outcome unit :=
  _acc <- fold_out (fun acc msg =>
    ' (commitment, _) <- unwrap (cc_commit I container SUPPLEMENT msg) ;;
    for_each (fun _ =>
      ' (commitment_prime, _) <- unwrap (cc_commit I container SUPPLEMENT msg) ;;
      assert (cc_cmt_eq I commitment_prime commitment)) nine ;;;
    assert (is_ok (cc_verify I SUPPLEMENT msg commitment)) ;;;
    for_each (fun m => assert_same (is_ok (cc_verify I SUPPLEMENT m commitment)) (meq m msg)) messages ;;;
    for_each (fun cmt => assert (is_err (cc_verify I SUPPLEMENT msg cmt))) acc ;;;
    let '(fresh, acc') := set_insert (cc_cmt_eq I) commitment acc in
    assert fresh ;;;
    Ret acc') messages [] ;;
  Ret tt.

(** lib.rs:196-223 [gen_messages] *)
Definition gen_messages : list (list byte) :=
  [ [];
    [x00];
    [x74; x65; x73; x74];
    [x74; x65; x73; x74; x2a];
    [xde; xad; xbe; xef];
    [xde; xad; xbe; xef; x00];
    [x00; xde; xad; xbe; xef];
    [x30; x32; x37; x39; x62; x65; x36; x36; x37; x65; x66; x39; x64; x63; x62; x62; x61; x63; x35; x35; x61; x30;
     x36; x32; x39; x35; x63; x65; x38; x37; x30; x62; x30; x37; x30; x32; x39; x62; x66; x63; x64; x62; x32; x64;
     x63; x65; x32; x38; x64; x39; x35; x39; x66; x32; x38; x31; x35; x62; x31; x36; x66; x38; x31; x37; x39; x38];
    [x02; x79; xbe; x66; x7e; xf9; xdc; xbb; xac; x55; xa0; x62; x95; xce; x87; x0b; x07; x02; x9b; xfc; xdb; x2d;
     xce; x28; xd9; x59; xf2; x81; x5b; x16; xf8; x17; x98];
    [x02; xf9; x30; x8a; x01; x92; x58; xc3; x10; x49; x34; x4f; x85; xf8; x9d; x52; x29; xb5; x31; xc8; x45; x83;
     x6f; x99; xb0; x86; x01; xf1; x13; xbc; xe0; x36; xf9] ].
