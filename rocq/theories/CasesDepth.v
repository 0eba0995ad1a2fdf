(** Cases for TheoremsDepth.v *)
From Verif Require Import Base BaseFacts OrdMap OrdMapFacts SpecCommit SpecDepth SpecValid MpcAtoms MpcTree MpcTreeProofs
  AvailProofs DepthData DepthProofs Steps CraftedProofs TheoremsMpc TheoremsDepth.
Local Open Scope nat_scope.

Ltac comp := vm_compute; reflexivity.
Definition zero_and (m : nat) (x : N) : multi_source :=
  MultiSource Sha256t m [(b32_of_N 0, b32_fill x01); (b32_of_N x, b32_fill x02)] (Some 7%N).
Lemma zero_and_valid m x : m <= 31 -> b32_ltb (b32_of_N 0) (b32_of_N x) = true -> valid_source (zero_and m x).
Proof.
  intros M L. split; [exact M|]. split; [vm_compute; discriminate|]. split; [|reflexivity].
  cbn [ms_messages zero_and om_sorted]. rewrite L. reflexivity.
Qed.

Lemma c103_criterion_case : valid_source (zero_and 3 lcm128) /\ length (ms_messages (zero_and 3 lcm128)) = 2 /\ enough 3 2 8 /\
  exists t, try_commit (zero_and 3 lcm128) None = Ret (Ok t) /\ mt_depth t = 8.
Proof.
  split; [apply zero_and_valid; [lia|comp]|]. split; [reflexivity|]. split; [exact (enough_limits 3 2 ltac:(lia) ltac:(lia))|].
  eexists. split; [comp|reflexivity].
Qed.
(** Three messages which need depth 8 *)
Definition three : multi_source :=
  MultiSource Sha256t 3 [(b32_of_N 0, b32_fill x01); (b32_of_N (2 * lcm128), b32_fill x02); (b32_of_N lcm128, b32_fill x02)] (Some 7%N).
Lemma c103_depth_case : valid_source three /\ length (ms_messages three) = 3 /\ depth_limit 3 = 10 /\
  exists t, try_commit three None = Ret (Ok t) /\ mt_depth t = 8.
Proof.
  split; [split; [cbn; lia|split; [vm_compute; discriminate|split; comp]]|]. split; [reflexivity|]. split; [reflexivity|].
  eexists. split; [comp|reflexivity].
Qed.
Lemma c103_two_case : valid_source (zero_and 12 (4096 * 4095)) /\
  exists t, try_commit (zero_and 12 (4096 * 4095)) None = Ret (Ok t) /\ mt_depth t = 13.
Proof.
  split; [apply zero_and_valid; [lia|comp]|]. eexists. split; [comp|reflexivity].
Qed.
Lemma c103_reached_case : exists t, try_commit (stubborn_source 3) None = Ret (Ok t) /\ mt_depth t = 8 /\ mt_cofactor t = 0%N.
Proof. eexists. split; [comp|split; reflexivity]. Qed.

(** A source with exactly the blocking identifiers *)
Definition blocked : multi_source :=
  MultiSource Sha256t 3 (om_of_list b32_ltb (map (fun p => (p, b32_fill x05)) blocking_ids)) (Some 7%N).
Lemma blocked_counts src : valid_source src -> incl blocking_ids (map fst (ms_messages src)) -> length (ms_messages src) = 280 ->
  ms_min_depth src = 3 -> ms_static_entropy src <> None ->
  exists positions, counted_commit src None = Ret (Err (CantFitInMaxSlots 280), 11279%N, positions).
Proof.
  intros V I L M EN.
  assert (E : try_commit src None = Ret (Err (CantFitInMaxSlots (length (ms_messages src))))).
  { destruct (c05_first_fit src None V (or_introl EN)) as [[_ [Z _]]|[[_ [_ E]]|[_ [t [_ [[A F] _]]]]]].
    - rewrite L in Z. discriminate.
    - exact E.
    - exfalso. exact (blocked_fits _ _ _ _ I A F). }
  destruct (c103_attempts src None _ V E) as [a [p [C [_ [_ [_ A]]]]]]. exists p. rewrite C, A, L, M.
  assert (X : attempts_below 3 280 32 = 11279%N) by comp. rewrite X. reflexivity.
Qed.
Lemma blocked_length : length (ms_messages blocked) = 280. Proof. comp. Qed.
Lemma blocked_valid : valid_source blocked.
Proof.
  split; [cbn; lia|]. split; [rewrite blocked_length; vm_compute; discriminate|]. split; comp.
Qed.
Lemma listed_incl ids (m : bytes32) : incl ids (map fst (om_of_list b32_ltb (map (fun p => (p, m)) ids))).
Proof. intros p J. apply of_list_keys. rewrite map_map. cbn [fst]. rewrite map_id. exact J. Qed.
Lemma blocked_incl : incl blocking_ids (map fst (ms_messages blocked)).
Proof. exact (listed_incl blocking_ids (b32_fill x05)). Qed.
Lemma c103_blocked_case : valid_source blocked /\ incl blocking_ids (map fst (ms_messages blocked)) /\
  length (ms_messages blocked) = 280 /\ exists positions,
  counted_commit blocked None = Ret (Err (CantFitInMaxSlots 280), 11279%N, positions).
Proof.
  split; [exact blocked_valid|]. split; [exact blocked_incl|]. split; [exact blocked_length|].
  apply blocked_counts; [exact blocked_valid|exact blocked_incl|exact blocked_length|reflexivity|discriminate].
Qed.
Lemma c103_attempts_case : exists t, counted_commit (zero_and 3 lcm128) None = Ret (Ok t, 127%N, 254%N) /\ mt_depth t = 8.
Proof. eexists. split; [comp|reflexivity]. Qed.
