(** Concrete cases meeting the hypotheses of the theorems of TheoremsEnd.v. *)
From Verif Require Import Base BaseFacts Digest MpcAtoms MpcTree MpcBlock Engine Seals Api Strict.
From Verif Require Import SpecHash SpecFull SpecValid SpecCommit SpecCodec SpecEngine SpecMisc SpecEnd.
From Verif Require Import StrictProofs CodecProofs TheoremsMpc TheoremsMisc TheoremsEnd CasesMpc CasesMisc.
Local Open Scope nat_scope.

(** Operations are numbers below 256, committed to by their strict encoding. *)
Definition opI : commit_encode N := @derive_strict N (str "op") idt u8t.
Definition op_fields (v : N) : list field := [FSerialized u8t v].
Definition op5 : bytes32 := Eval vm_compute in or_else p1 (@commit_id toy N Debug opI 5%N).
Definition srco : multi_source := MultiSource Sha256t 2 [(p1, op5); (p2, m2)] (Some 7%N).
Definition tro : merkle_tree := Eval vm_compute in match try_commit srco None with Ret (Ok t) => t | _ => t0 end.
Definition co : bytes32 := Eval vm_compute in or_else p1 (@tree_commit_id toy Debug tro).
Definition pfo : merkle_proof := Eval vm_compute in
  match @to_merkle_proof toy Debug (@block_of_tree toy tro) p1 with Ret (Ok p) => p | _ => pf1 end.
Lemma srco_valid : valid_source srco. Proof. vsrc. Qed.
(** Seals 1 and 2 are closed by one published witness, others by none. *)
Definition medium0 (s : nat) : option (list nat * bytes32) := if existsb (Nat.eqb s) [1; 2] then Some ([1; 2], co) else None.
Definition proof_okb (p : merkle_proof) : bool :=
  (mp_pos p <? 2 ^ 32)%N && (mp_cofactor p <? 2 ^ 16)%N && (length (mp_path p) <=? 32).
(** A resolver which checks everything *)
Definition resolve0 (r : nat) (x : claim N nat (list nat * bytes32)) : result unit nat * nat :=
  let '(s, op, (pub, pf)) := x in
  (match medium0 s, @commit_id toy N Debug opI op with
   | Some pub0, Ret id =>
       if proof_okb pf then
         if list_eq_dec Nat.eq_dec (fst pub0) (fst pub) then
           if b32_eqb (snd pub0) (snd pub) then
             match verify_seal_closing mpc_protocol (witness_new pub pf) s id with Ok tt => Ok tt | Err _ => Err s end
           else Err s
         else Err s
       else Err s
   | _, _ => Err s
   end, S r).
Lemma proof_okb_ok p : proof_okb p = true <-> valid_proof p.
Proof.
  unfold proof_okb, valid_proof. rewrite !andb_true_iff, !N.ltb_lt, Nat.leb_le. tauto.
Qed.
Lemma resolve0_careful : @trusts_only_closed toy N nat (list nat * bytes32) (list nat) unit unit medium0 mpc_protocol Debug opI nat nat resolve0.
Proof.
  intros r [[s op] [pub pf]] u r' E. unfold resolve0 in E. unfold closed_by.
  destruct (medium0 s) as [pub0|]; [|discriminate]. destruct (@commit_id toy N Debug opI op) as [id|]; [|discriminate].
  destruct (proof_okb pf) eqn:W; [|discriminate]. destruct (list_eq_dec Nat.eq_dec (fst pub0) (fst pub)) as [E1|]; [|discriminate].
  destruct (b32_eqb (snd pub0) (snd pub)) eqn:E2; [|discriminate]. apply b32_eqb_eq in E2.
  destruct (verify_seal_closing mpc_protocol (witness_new pub pf) s id) as [[]|] eqn:V; [|discriminate].
  split; [apply proof_okb_ok; exact W|]. split; [destruct pub0, pub; cbn in *; subst; reflexivity|]. exists id. split; [reflexivity|exact V].
Qed.
Lemma resolve0_capable : @trusts_closed toy N nat (list nat * bytes32) (list nat) unit unit medium0 mpc_protocol Debug opI nat nat resolve0.
Proof.
  intros r [[s op] [pub pf]] [W [M [id [I V]]]]. exists (S r). unfold resolve0. rewrite M, I, (proj2 (proof_okb_ok pf) W).
  destruct (list_eq_dec Nat.eq_dec (fst pub) (fst pub)) as [_|N]; [|congruence]. rewrite (proj2 (b32_eqb_eq _ _) eq_refl), V. reflexivity.
Qed.
Definition ok0 : status nat nat nat nat := Status [] [] [7] [].
Definition item0 : client_data nat nat nat nat (claim N nat (list nat * bytes32)) :=
  ClientData [(1, 5%N, (([1; 2], co), pfo)); (2, 5%N, (([1; 2], co), pfo))] ok0.
Definition item6 : client_data nat nat nat nat (claim N nat (list nat * bytes32)) :=
  ClientData [(1, 6%N, (([1; 2], co), pfo))] ok0.

Lemma mpc_client w x c : sl_convolve mpc_protocol w x = Ok c -> exists d, @convolve toy d w p1 x = Ret (Ok c).
Proof.
  cbn [mpc_protocol sl_convolve]. intros E. exists Debug. destruct (@convolve toy Debug w p1 x) as [[z|z]|z]; congruence.
Qed.
Lemma mpc_one pub p q v w : sl_verify_commitment mpc_protocol pub p = Ok v -> sl_verify_commitment mpc_protocol pub q = Ok w -> p = q.
Proof.
  cbn. destruct (b32_eqb (snd pub) p) eqn:E; [|discriminate]. destruct (b32_eqb (snd pub) q) eqn:F; [|discriminate].
  intros _ _. apply b32_eqb_eq in E. apply b32_eqb_eq in F. congruence.
Qed.
Lemma c82_no_double_spend_case :
  (forall w x c, sl_convolve mpc_protocol w x = Ok c -> exists d, @convolve toy d w p1 x = Ret (Ok c)) /\
  (forall pub p q v w, sl_verify_commitment mpc_protocol pub p = Ok v -> sl_verify_commitment mpc_protocol pub q = Ok w -> p = q) /\
  (forall d v, ce_encode opI d v (@engine_new toy (ce_tag opI)) = @run toy d (op_fields v) (@engine_new toy (ce_tag opI))) /\
  Forall2 same_kind (op_fields 5) (op_fields 6) /\ (op_fields 5 = op_fields 6 -> 5%N = 6%N) /\
  @trusts_only_closed toy N nat (list nat * bytes32) (list nat) unit unit medium0 mpc_protocol Debug opI nat nat resolve0 /\
  claims [item0; item0] (1, 5%N, (([1; 2], co), pfo)) /\ claims [item6] (1, 6%N, (([1; 2], co), pfo)) /\
  status_validity (fst (client_side_validate resolve0 item0 [item0; item0] 0)) = Valid /\
  status_validity (fst (client_side_validate resolve0 item0 [item6] 0)) = SealIssues /\
  Forall2 (@feeds toy) (op_fields 5) [[x05]] /\ @fields_hashed toy (op_fields 5) [].
Proof.
  split; [exact mpc_client|split; [exact mpc_one|]]. split; [|split; [|split; [|split; [exact resolve0_careful|]]]].
  - intros d v. unfold op_fields. cbn [run run1]. unfold opI, derive_strict. cbn [ce_encode ce_tag].
    destruct (commit_to_serialized d u8t v (@engine_new toy (str "op"))); reflexivity.
  - constructor; [|constructor]. apply (sk_serialized N u8t _ 5%N 6%N (c_le_lawful 1)); reflexivity.
  - intros E. apply (f_equal (map (fun f => match f with FSerialized T v => enc (ty_codec T) v | _ => [] end))) in E. discriminate E.
  - split; [exists item0; cbn; auto|]. split; [exists item6; cbn; auto|]. split; [comp|split; [comp|]].
    split; [repeat constructor|]. apply fh_other; [discriminate|constructor].
Qed.
Lemma c82_honest_case :
  (forall w x c, @convolve toy Debug w p1 x = Ret (Ok c) -> sl_convolve mpc_protocol w x = Ok c) /\
  @trusts_closed toy N nat (list nat * bytes32) (list nat) unit unit medium0 mpc_protocol Debug opI nat nat resolve0 /\
  status_validity (cd_consistency item0) = Valid /\
  (forall s op pub pf, claims [item0] (s, op, (pub, pf)) ->
     exists id src rng t c, @commit_id toy N Debug opI op = Ret id /\ medium0 s = Some pub /\
       valid_source src /\ try_commit src rng = Ret (Ok t) /\ @tree_commit_id toy Debug t = Ret c /\ In (p1, id) (ms_messages src) /\
       @to_merkle_proof toy Debug (@block_of_tree toy t) p1 = Ret (Ok pf) /\
       sl_verify_commitment mpc_protocol pub c = Ok tt /\ sl_is_included mpc_protocol s id (pub, pf) = true).
Proof.
  split; [|split; [exact resolve0_capable|split; [comp|]]].
  - intros w x y E. cbn [mpc_protocol sl_convolve]. rewrite E. reflexivity.
  - intros s op pub pf [it [[<-|[]] I]]. cbn [item0 cd_seals] in I.
    exists op5, srco, None, tro, co. destruct I as [Q|[Q|[]]]; injection Q as <- <- <- <-;
      (split; [comp|split; [comp|split; [exact srco_valid|split; [comp|split; [comp|split; [left; reflexivity|split; [comp|split; comp]]]]]]]).
Qed.
