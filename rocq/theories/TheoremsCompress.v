(** C98: the hash functions of the model are the published ones. *)
From Verif Require Import Base Sha256 Ripemd SpecSha SpecRipemd SpecCompress CompressProofs.
Local Open Scope nat_scope.

Lemma c98_sha256 : forall x d, sha_published x d <-> d = b32 (sha256 x).
Proof.
  intros x d. split; [intros P; exact (sha_published_fun _ _ _ P (sha_published_ok x))|intros ->; apply sha_published_ok].
Qed.
Lemma c98_ripemd160 : forall x d, rmd_published x d <-> d = ripemd160 x.
Proof.
  intros x d. split; [intros P; exact (rmd_published_fun _ _ _ P (rmd_published_ok x))|intros ->; apply rmd_published_ok].
Qed.
Lemma c98_sha_step : forall s b s' (proper : proper_input (s, b)),
  let words s := [sa s; sb s; sc s; sd s; se s; sf s; sg s; sh s] in
  sha_compresses (words s) b s' <-> s' = words (compress s b).
Proof.
  intros s b s' (F & L & B) words. cbn [fst snd] in *. split.
  - intros P. exact (sha_compresses_fun _ _ _ _ P (compress_spec s b F L B)).
  - intros ->. exact (compress_spec s b F L B).
Qed.
Lemma c98_rmd_step : forall s b s' (proper : rproper_input (s, b)),
  rmd_compresses (rwords_of s) b s' <-> s' = rwords_of (rcompress s b).
Proof.
  intros s b s' (F & L & B). cbn [fst snd] in *. split.
  - intros P. exact (rmd_compresses_fun _ _ _ _ P (rcompress_spec s b F L)).
  - intros ->. exact (rcompress_spec s b F L).
Qed.
