(** commit_verify/src/digest.rs *)
From Verif Require Import Base.

(** Streaming digest engine (sha2::Sha256, ripemd::Ripemd160; crates outside /repo):
    the bytes fed so far.  [update] appends, [finalize] hashes everything fed. *)
Definition sha_engine : Set := list byte.

(** digest.rs:27, 44-53, 61-70 [DigestExt::from_tag], for any hash function [hash] (both
    instances have the same text): a tagger is fed the tag and finalized, its digest is
    fed twice into a fresh engine. *)
Definition from_tag_with (hash : list byte -> list byte) (tag : list byte) : sha_engine :=
  let tagger : sha_engine := [] ++ tag in
  let tag' := hash tagger in
  let engine : sha_engine := [] in
  let engine := engine ++ tag' in
  engine ++ tag'.

(** digest.rs:55, 72 [input_raw] *)
Definition input_raw (e : sha_engine) (data : list byte) : sha_engine := e ++ data.

(** amplify::num::u24::with: panics above 2^24-1 (crate outside /repo: trusted). *)
Definition u24_with (v : N) : outcome N :=
  if (v <? 2 ^ 24)%N then Ret v else Panic PAssert.

(** digest.rs:29-39 [input_with_len::<MAX>]. [usize] is 64-bit.  [len as u8] etc. truncate;
    [le k] writes the [k] low bytes. *)
Definition input_with_len (max : N) (e : sha_engine) (data : list byte) : outcome sha_engine :=
  let len := N.of_nat (length data) in
  e' <- (if (max <=? 0xFF)%N then Ret (input_raw e (le 1 (len mod 2 ^ 8)))
         else if (max <=? 0xFFFF)%N then Ret (input_raw e (le 2 (len mod 2 ^ 16)))
         else if (max <=? 0xFFFFFF)%N then
           v <- u24_with (len mod 2 ^ 32) ;; Ret (input_raw e (le 3 v))
         else if (max <=? 0xFFFFFFFF)%N then Ret (input_raw e (le 4 (len mod 2 ^ 32)))
         else Panic PUnreachable) ;;
  Ret (input_raw e' data).

(** Several [input_with_len::<MAX>] calls in sequence. *)
Fixpoint inputs_with_len (max : N) (e : sha_engine) (datas : list (list byte)) : outcome sha_engine :=
  match datas with
  | [] => Ret e
  | d :: r => e' <- input_with_len max e d ;; inputs_with_len max e' r
  end.

Section Sha.
Context {H : Hasher}.

(** digest.rs:44-53 for Sha256 *)
Definition from_tag (tag : list byte) : sha_engine := from_tag_with (fun l => b32 (HASH l)) tag.

(** digest.rs:57 [finish] *)
Definition digest_finish (e : sha_engine) : bytes32 := HASH e.

End Sha.
