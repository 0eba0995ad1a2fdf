(** Concrete cases meeting the hypotheses of the theorems of TheoremsHash.v. *)
From Verif Require Import Base BaseFacts Digest Sha256 Ripemd SpecHash SpecSha SpecRipemd SpecEngine SpecMisc.
From Verif Require Import RipemdProofs TheoremsMpc TheoremsHash CasesMpc.
Local Open Scope nat_scope.

Definition tagr : list byte := str "urn:tag".
Lemma c80_published_case : exists calls, rmd_run (str "abc") calls (ripemd160 (str "abc")) /\
  hex (ripemd160 (str "abc")) = "8eb208f7e05d987a9b044a8e98c6b087f15a0bfc"%string.
Proof. destruct (rmd_runs (str "abc")) as [calls R]. exists calls. split; [exact R|comp]. Qed.
Lemma c80_tagged_case : exists calls d, rmd_run tagr calls d /\
  rmd_finish (fold_left input_raw [str "ab"; str "c"] (rmd_from_tag tagr)) = ripemd160 (d ++ d ++ str "abc").
Proof. destruct (rmd_runs tagr) as [calls R]. exists calls, (ripemd160 tagr). split; [exact R|comp]. Qed.
Lemma c80_binding_case : exists calls d, rmd_run tagr calls d /\
  Forall short [tagr; tagr; r_pre d (concat [str "ab"; str "c"]); r_pre d (concat [str "a"; str "bc"])] /\
  rmd_finish (fold_left input_raw [str "ab"; str "c"] (rmd_from_tag tagr)) =
  rmd_finish (fold_left input_raw [str "a"; str "bc"] (rmd_from_tag tagr)).
Proof.
  destruct (rmd_runs tagr) as [calls R]. exists calls, (ripemd160 tagr). split; [exact R|split; [|comp]].
  repeat (apply Forall_cons; [vm_compute; reflexivity|]). apply Forall_nil.
Qed.
Lemma c80_framed_case : exists calls d e e', rmd_run tagr calls d /\ prefix_size 65535 2 /\
  inputs_with_len 65535 (rmd_from_tag tagr) [str "ab"; str "c"] = Ret e /\
  inputs_with_len 65535 (rmd_from_tag tagr) [str "a"; str "bc"] = Ret e' /\ rmd_finish e <> rmd_finish e' /\
  Forall short [tagr; tagr; r_pre d (framed 2 [str "ab"; str "c"]); r_pre d (framed 2 [str "a"; str "bc"])].
Proof.
  destruct (rmd_runs tagr) as [calls R]. exists calls, (ripemd160 tagr). eexists. eexists. split; [exact R|].
  split; [apply ps_16; split; [discriminate|reflexivity]|]. split; [comp|split; [comp|split; [vm_compute; discriminate|]]].
  repeat (apply Forall_cons; [vm_compute; reflexivity|]). apply Forall_nil.
Qed.
Lemma c80_framed_sha_case : exists e e', prefix_size 65535 2 /\
  inputs_with_len 65535 (@from_tag sha256 tagr) [str "ab"; str "c"] = Ret e /\
  inputs_with_len 65535 (@from_tag sha256 tagr) [str "a"; str "bc"] = Ret e' /\
  @digest_finish sha256 e <> @digest_finish sha256 e'.
Proof.
  eexists. eexists. split; [apply ps_16; split; [discriminate|reflexivity]|]. split; [comp|split; [comp|vm_compute; discriminate]].
Qed.
