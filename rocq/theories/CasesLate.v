(** Cases for TheoremsLate.v: adversaries, and a hash function for which they win. *)
From Verif Require Import Base BaseFacts OrdMap Digest Merkle MpcAtoms MpcTree MpcBlock Engine Seals Api Strict.
From Verif Require Import SpecHash SpecTree SpecMerkle SpecFull SpecValid SpecFind SpecQuery SpecCommit SpecCodec SpecEngine SpecEnd SpecGame SpecTarget SpecIdGame SpecLate.
From Verif Require Import StrictProofs CodecProofs TheoremsMpc TheoremsMerkle TheoremsMisc TheoremsQuery TheoremsGame TheoremsEnd TheoremsIdGame TheoremsLate.
From Verif Require Import CasesMpc CasesMisc CasesMore CasesExt CasesLocal CasesGame CasesEnd CasesIdGame.
Local Open Scope nat_scope.

Lemma c108_extract_case :
  let fs := [FSerialized u8t 5%N; FMerkle idt [p1; p2]] in let gs := [FSerialized u8t 6%N; FMerkle idt [p1; p2; p3]] in
  exists e e' bs cs Lf Lg, @run flat Debug fs (@engine_new flat (str "tag")) = Ret e /\
    @run flat Debug gs (@engine_new flat (str "tag")) = Ret e' /\ Forall2 same_kind fs gs /\
    Forall2 (@feeds flat) fs bs /\ Forall2 (@feeds flat) gs cs /\ @fields_hashed flat fs Lf /\ @fields_hashed flat gs Lg /\
    @digest_finish flat (engine_finish e) = @digest_finish flat (engine_finish e').
Proof. exact c35_binding_case. Qed.

Definition other_rec : prog (N * list bytes32) := Ask [x01] (fun _ => Done (6%N, [p1; p2; p3])).
Lemma c108_ids_case : exists U, universe 162 U /\ length (str "pair") <= 162 /\ modest 162 1 other_rec /\
  (forall H, feeds_fields H (str "pair") rec_fields (recI H)) /\
  exists f, length f = length U /\ exec (table U f) other_rec = (6%N, [p1; p2; p3]) /\
    small (table U f) 162 8 (str "pair") (rec_fields (6%N, [p1; p2; p3])) /\
    exists v, In v [(7%N, []); (5%N, [p1; p2])] /\
    small (table U f) 162 8 (str "pair") (rec_fields v) /\
    rec_fields v <> rec_fields (6%N, [p1; p2; p3]) /\ Forall2 same_kind (rec_fields v) (rec_fields (6%N, [p1; p2; p3])) /\
    @commit_id (table U f) _ Debug (recI (table U f)) v = Ret cflat /\
    @commit_id (table U f) _ Debug (recI (table U f)) (6%N, [p1; p2; p3]) = Ret cflat.
Proof.
  destruct c107_ids_case as (U & UU & LT & _ & F & f & Lf & _ & D & K & S1 & S2 & E1 & E2).
  exists U. split; [exact UU|split; [exact LT|split; [cbn; split; [lia|intros; exact I]|split; [exact F|]]]].
  exists f. split; [exact Lf|split; [reflexivity|split; [exact S2|]]]. exists (5%N, [p1; p2]).
  split; [right; left; reflexivity|split; [exact S1|split; [exact D|split; [exact K|split; assumption]]]].
Qed.
Lemma c108_lists_case : exists U, universe 162 U /\ modest 162 0 (Done [p3; p1; p2]) /\
  exists f, length f = length U /\ In [p1; p2] [[]; [p1; p2]] /\
    @merklize (table U f) [p1; p2] = Ret cflat /\ @merklize (table U f) [p3; p1; p2] = Ret cflat.
Proof.
  destruct c92_two_lists_case as (U & UU & _ & f & Lf & E1 & E2). exists U. split; [exact UU|split; [exact I|]].
  exists f. split; [exact Lf|split; [right; left; reflexivity|split; assumption]].
Qed.

(** The id of operation 5 is committed to beside another message. *)
Definition src_op (id : bytes32) : multi_source * option N := (MultiSource Sha256t 2 [(p1, id); (p2, m2)] (Some 7%N), None).
Definition t_op : merkle_tree := Eval vm_compute in match try_commit (fst (src_op (flat []))) None with Ret (Ok t) => t | _ => t0 end.
Definition replacer : prog (N * merkle_proof) := Ask [x01] (fun _ => Done (6%N, pf1)).
Lemma op5_published U : published (table U (map flat U)) opI 5%N p1 src_op 2 cflat.
Proof.
  exists Debug, (flat []), t_op. split; [apply op_commits|split; [vsrc|split; [left; reflexivity|split; [comp|split; [vm_compute; lia|]]]]].
  rewrite (c85_tree flat) by (first [vm_compute; lia|apply flat_agree]). comp.
Qed.
Lemma c108_replaced_case : exists U, universe 162 U /\ length (str "op") <= 162 /\ modest 162 1 replacer /\
  (forall H, feeds_fields H (str "op") op_fields opI) /\
  exists f, length f = length U /\ exec (table U f) replacer = (6%N, pf1) /\
    op_fields 5 <> op_fields 6 /\ Forall2 same_kind (op_fields 5) (op_fields 6) /\
    small (table U f) 162 0 (str "op") (op_fields 5) /\ small (table U f) 162 0 (str "op") (op_fields 6) /\
    published (table U f) opI 5%N p1 src_op 2 cflat /\
    accepted_for N nat bytes32 nat unit unit nat nat nat nat nat (table U f) opI p1 cflat 6%N pf1.
Proof.
  destruct (all_strings 162) as [U UU]. exists U. split; [exact UU|split; [cbn; lia|split; [cbn; split; [lia|intros; exact I]|split; [exact opI_feeds|]]]].
  exists (map flat U). split; [apply flat_list|split; [reflexivity|split; [|split; [|split; [|split; [|split; [apply op5_published|]]]]]]].
  - intros E. apply (f_equal (map (fun f => match f with FSerialized T v => enc (ty_codec T) v | _ => [] end))) in E. discriminate E.
  - apply op_kind; reflexivity.
  - apply op_small.
  - apply op_small.
  - exists plain_medium, (plain_protocol (table U (map flat U))), Debug, (knows 6%N), (plain_item 6%N), [plain_item 6%N], 0, 0, cflat, cflat, tt.
    split; [|split; [|split; [apply knows_careful|split; [comp|split; [|split; [reflexivity|comp]]]]]].
    + intros w x c. cbn [plain_protocol sl_convolve]. intros E. exists Debug.
      destruct (@convolve (table U (map flat U)) Debug w p1 x) as [[z|z]|z]; congruence.
    + cbn. intros pub p q v w. destruct (b32_eqb pub p) eqn:E; [|discriminate]. destruct (b32_eqb pub q) eqn:F; [|discriminate].
      intros _ _. apply b32_eqb_eq in E. apply b32_eqb_eq in F. congruence.
    + exists (plain_item 6%N). cbn. auto.
Qed.
Lemma c108_numbers_case : modest 162 1 replacer /\ (N.of_nat 1 <= 2 ^ 100)%N /\ (N.of_nat 0 <= 2 ^ 16)%N /\ 2 <= 16 /\
  (forall H, feeds_fields H (str "op") op_fields opI).
Proof.
  split; [cbn; split; [lia|intros; exact I]|split; [vm_compute; discriminate|split; [vm_compute; discriminate|split; [lia|exact opI_feeds]]]].
Qed.
