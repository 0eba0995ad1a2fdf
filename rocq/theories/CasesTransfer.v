(** Cases for TheoremsTransfer.v: a consignment which is delivered, and a hash function for which it can be tampered with. *)
From Verif Require Import Base BaseFacts OrdMap Digest Merkle MpcAtoms MpcTree MpcBlock Engine Seals Api Strict.
From Verif Require Import SpecHash SpecTree SpecMerkle SpecFull SpecValid SpecFind SpecQuery SpecCommit SpecCodec SpecEngine SpecEnd SpecGame SpecTarget SpecIdGame SpecTransfer.
From Verif Require Import StrictProofs CodecProofs TheoremsMpc TheoremsMerkle TheoremsMisc TheoremsQuery TheoremsGame TheoremsEnd TheoremsIdGame TheoremsLate TheoremsTransfer.
From Verif Require Import CasesMpc CasesMisc CasesMore CasesExt CasesLocal CasesGame CasesEnd CasesIdGame CasesLate.
Local Open Scope nat_scope.

(** Seals are numbers below 32, witnesses lists of seals with a commitment, operations numbers below 256. *)
Definition c_pubs : codec (list nat * bytes32) := c_pair (c_vec 1 0 255 c_u5) c_b32.
Definition pubs_ok (w : list nat * bytes32) : Prop := vec_valid 0 255 (fun d => d <= 31) (fst w) /\ any (snd w).
Lemma c_pubs_lawful : lawful c_pubs pubs_ok.
Proof. exact (c_pair_lawful _ _ _ _ (c_vec_lawful 1 0 255 _ _ eq_refl c_u5_lawful) c_b32_lawful). Qed.
Definition op_ok (v : N) : Prop := (v < 256 ^ N.of_nat 1)%N.
Definition sent0 : list (claim N nat (list nat * bytes32)) := [(1, 5%N, (([1; 2], CasesEnd.co), pfo)); (2, 5%N, (([1; 2], CasesEnd.co), pfo))].
Lemma c109_delivered_case :
  lawful c_u5 (fun d => d <= 31) /\ lawful (c_le 1) op_ok /\ lawful c_pubs pubs_ok /\
  (forall w x c, @convolve toy Debug w p1 x = Ret (Ok c) -> sl_convolve mpc_protocol w x = Ok c) /\
  @trusts_closed toy N nat (list nat * bytes32) (list nat) unit unit medium0 mpc_protocol Debug opI nat nat resolve0 /\
  writable (fun d => d <= 31) op_ok pubs_ok sent0 /\
  (forall x, In x sent0 -> transferred toy medium0 mpc_protocol Debug opI p1 (fun _ => src_op) 2 x).
Proof.
  split; [exact c_u5_lawful|split; [exact (c_le_lawful 1)|split; [exact c_pubs_lawful|split; [apply c82_honest_case|split; [exact resolve0_capable|split]]]]].
  - split; [vm_compute; discriminate|]. intros s op pub pf [Q|[Q|[]]]; injection Q as <- <- <- <-;
      (split; [lia|split; [reflexivity|]]; split; [|exact I]; split; [vm_compute; split; discriminate|repeat constructor; lia]).
  - intros x [<-|[<-|[]]]; exists op5, tro, CasesEnd.co;
      (split; [comp|split; [exact srco_valid|split; [left; reflexivity|split; [comp|split; [vm_compute; lia|split; [comp|split; [comp|split; [comp|split; comp]]]]]]]]).
Qed.
Definition sent_bytes : list byte := Eval vm_compute in enc (c_consignment c_u5 (c_le 1) c_pubs) sent0.
Lemma c109_exact_case : lawful c_u5 (fun d => d <= 31) /\ lawful (c_le 1) op_ok /\ lawful c_pubs pubs_ok /\
  receive c_u5 (c_le 1) c_pubs nat nat nat resolve0 0 sent_bytes = Some Valid /\
  receive c_u5 (c_le 1) c_pubs nat nat nat resolve0 0 (sent_bytes ++ [x00]) = None /\
  receive c_u5 (c_le 1) c_pubs nat nat nat resolve0 0 (firstn 100 sent_bytes) = None /\
  receive c_u5 (c_le 1) c_pubs nat nat nat resolve0 0 (firstn 3 sent_bytes ++ [x06] ++ skipn 4 sent_bytes) = Some SealIssues.
Proof.
  split; [exact c_u5_lawful|split; [exact (c_le_lawful 1)|split; [exact c_pubs_lawful|split; [comp|split; [comp|split; comp]]]]].
Qed.

Lemma op_regular op op' : op_ok op -> op_ok op' -> Forall2 same_kind (op_fields op) (op_fields op').
Proof. intros A B. apply op_kind; assumption. Qed.
Lemma op_faithful op op' : op_ok op -> op_ok op' -> op_fields op = op_fields op' -> op = op'.
Proof.
  intros A B E. apply (f_equal (map (fun f => match f with FSerialized T v => enc (ty_codec T) v | _ => [] end))) in E.
  injection E as E. apply (lawful_enc_inj (c_le 1) _ _ _ (c_le_lawful 1) A B). cbn [enc c_le le]. rewrite E. reflexivity.
Qed.
Lemma plain_client U w x c : sl_convolve (plain_protocol (table U (map flat U))) w x = Ok c ->
  exists d, @convolve (table U (map flat U)) d w p1 x = Ret (Ok c).
Proof.
  cbn [plain_protocol sl_convolve]. intros E. exists Debug. destruct (@convolve (table U (map flat U)) Debug w p1 x) as [[z|z]|z]; congruence.
Qed.
Lemma plain_one H pub p q v w : sl_verify_commitment (plain_protocol H) pub p = Ok v -> sl_verify_commitment (plain_protocol H) pub q = Ok w -> p = q.
Proof.
  cbn. destruct (b32_eqb pub p) eqn:E; [|discriminate]. destruct (b32_eqb pub q) eqn:F; [|discriminate].
  intros _ _. apply b32_eqb_eq in E. apply b32_eqb_eq in F. congruence.
Qed.
(** Under the constant hash function two different consignments are accepted. *)
Definition bytes_of (v : N) : list byte := enc (c_consignment c_u5 (c_le 1) c_b32) [spends v].
Lemma c109_same_case : exists H : Hasher,
  (forall w x c, sl_convolve (plain_protocol H) w x = Ok c -> exists d, @convolve H d w p1 x = Ret (Ok c)) /\
  (forall pub p q v w, sl_verify_commitment (plain_protocol H) pub p = Ok v -> sl_verify_commitment (plain_protocol H) pub q = Ok w -> p = q) /\
  (forall d v, ce_encode opI d v (@engine_new H (ce_tag opI)) = @run H d (op_fields v) (@engine_new H (ce_tag opI))) /\
  (forall op op', op_ok op -> op_ok op' -> Forall2 same_kind (op_fields op) (op_fields op')) /\
  (forall op op', op_ok op -> op_ok op' -> op_fields op = op_fields op' -> op = op') /\
  (forall op, op_ok op -> Forall2 (@feeds H) (op_fields op) [enc (c_le 1) op]) /\ (forall op, op_ok op -> @fields_hashed H (op_fields op) []) /\
  @trusts_only_closed H N nat bytes32 nat unit unit plain_medium (plain_protocol H) Debug opI nat nat (knows 5%N) /\
  @trusts_only_closed H N nat bytes32 nat unit unit plain_medium (plain_protocol H) Debug opI nat nat (knows 6%N) /\
  receive c_u5 (c_le 1) c_b32 nat nat nat (knows 5%N) 0 (bytes_of 5) = Some Valid /\
  receive c_u5 (c_le 1) c_b32 nat nat nat (knows 6%N) 0 (bytes_of 6) = Some Valid /\
  dec (c_consignment c_u5 (c_le 1) c_b32) (bytes_of 5) = Some ([spends 5], []) /\
  dec (c_consignment c_u5 (c_le 1) c_b32) (bytes_of 6) = Some ([spends 6], []) /\
  map (fun x => fst (fst x)) [spends 5] = map (fun x => fst (fst x)) [spends 6].
Proof.
  destruct (all_strings 162) as [U UU]. exists (table U (map flat U)).
  split; [apply plain_client|split; [apply plain_one|split; [apply (opI_feeds (table U (map flat U)))|split; [exact op_regular|split; [exact op_faithful|]]]]].
  split; [intros op _; repeat constructor|split; [intros op _; apply fh_other; [discriminate|constructor]|]].
  split; [apply knows_careful|split; [apply knows_careful|]].
  split; [comp|split; [comp|split; [comp|split; [comp|reflexivity]]]].
Qed.

Definition forger : prog (list byte) := Ask [x01] (fun _ => Done (bytes_of 6)).
Lemma c109_channel_case : exists U, universe 162 U /\ length (str "op") <= 162 /\ modest 162 1 forger /\
  lawful c_u5 (fun d => d <= 31) /\ lawful (c_le 1) op_ok /\ lawful c_b32 (fun _ => True) /\
  (forall op op', op_ok op -> op_ok op' -> Forall2 same_kind (op_fields op) (op_fields op')) /\
  (forall op op', op_ok op -> op_ok op' -> op_fields op = op_fields op' -> op = op') /\
  (forall H op, op_ok op -> small H 162 0 (str "op") (op_fields op)) /\ (forall s op, In (s, op) [(0, 5%N)] -> op_ok op) /\
  (forall H, feeds_fields H (str "op") op_fields opI) /\
  exists f, length f = length U /\ exec (table U f) forger = bytes_of 6 /\
    tampered nat unit unit nat nat nat nat nat (table U f) c_u5 (c_le 1) c_b32 opI p1 (fun _ => src_op) 2 [(0, 5%N)] (bytes_of 6).
Proof.
  destruct (all_strings 162) as [U UU]. exists U. split; [exact UU|split; [cbn; lia|split; [cbn; split; [lia|intros; exact I]|]]].
  split; [exact c_u5_lawful|split; [exact (c_le_lawful 1)|split; [exact c_b32_lawful|split; [exact op_regular|split; [exact op_faithful|]]]]].
  split; [intros; apply op_small|split; [intros s op [Q|[]]; injection Q as <- <-; reflexivity|split; [exact opI_feeds|]]].
  exists (map flat U). split; [apply flat_list|split; [reflexivity|]]. set (H := table U (map flat U)).
  assert (V : valid_source (fst (src_op (flat [])))) by vsrc.
  assert (T : try_commit (fst (src_op (flat []))) None = Ret (Ok t_op)) by comp.
  destruct (c02_every_message_has_proof H Debug _ None t_op p1 (flat []) V T (or_introl eq_refl)) as (pf & c & X & C & _).
  exists plain_medium, (plain_protocol H), Debug, Debug, (knows 6%N), 0, [(0, 5%N, (cflat, pf))], [spends 6].
  split; [apply plain_client|split; [apply plain_one|split; [apply knows_careful|split; [reflexivity|split; [|split; [comp|split; [reflexivity|split; [comp|]]]]]]]].
  - intros x [<-|[]]. exists (flat []), t_op, cflat. split; [apply op_commits|split; [exact V|split; [left; reflexivity|split; [exact T|split; [vm_compute; lia|split]]]]].
    + unfold H. rewrite (c85_tree flat) by (first [vm_compute; lia|apply flat_agree]). comp.
    + split; [exact X|split; [reflexivity|split; [comp|reflexivity]]].
  - intros E. apply (f_equal (fun l => nth 3 l x00)) in E. discriminate E.
Qed.
Lemma c109_numbers_case : modest 162 1 forger /\ (N.of_nat 1 <= 2 ^ 100)%N /\ (N.of_nat 0 <= 2 ^ 16)%N /\ 2 <= 16 /\ (N.of_nat (length [(0, 5%N)]) <= 2 ^ 16)%N.
Proof.
  split; [cbn; split; [lia|intros; exact I]|split; [vm_compute; discriminate|split; [vm_compute; discriminate|split; [lia|vm_compute; discriminate]]]].
Qed.
