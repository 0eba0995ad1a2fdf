(** About a thousand protocol ids which never fit: 0 and products of the widths that are tried. *)
From Verif Require Import Base BaseFacts OrdMap OrdMapFacts SpecCommit SpecValid MpcAtoms MpcTree MpcTreeProofs AvailProofs TheoremsMpc.
Local Open Scope N_scope.

(** Divisor used for a position at depth [d] with cofactor [c] *)
Definition divisor (d : nat) (c : N) : N := N.max 1 (2 ^ N.of_nat d - c).
(** Product of [k] consecutive divisors, [k] such that it has less than 256 bits *)
Definition crafted_group (d : nat) : nat := (255 / d)%nat.
Definition crafted_id (d j : nat) : N :=
  prod (map (fun i => divisor d (N.of_nat (j * crafted_group d + i))) (seq 0 (crafted_group d))).
Definition crafted_ids : list N :=
  0 :: flat_map (fun d => map (crafted_id d) (seq 0 (S (500 / crafted_group d)))) (seq 3 29).
Definition crafted : multi_source :=
  MultiSource Sha256t 3 (om_of_list b32_ltb (map (fun x => (b32_of_N x, b32_fill x00)) crafted_ids)) (Some 0).

Lemma divisor_bound d c : divisor d c <> 0 /\ divisor d c <= 2 ^ N.of_nat d.
Proof.
  unfold divisor. assert (2 ^ N.of_nat d <> 0) by (apply N.pow_nonzero; discriminate). lia.
Qed.
Lemma crafted_bound d j : (3 <= d <= 31)%nat -> crafted_id d j <> 0 /\ crafted_id d j < 2 ^ 256.
Proof.
  intros D. unfold crafted_id.
  destruct (prod_bound (map (fun i => divisor d (N.of_nat (j * crafted_group d + i))) (seq 0 (crafted_group d)))
              (2 ^ N.of_nat d)) as [Z B].
  { apply Forall_map, Forall_forall. intros i _. apply divisor_bound. }
  split; [exact Z|]. eapply N.le_lt_trans; [exact B|]. rewrite map_length, seq_length, <- N.pow_mul_r.
  apply N.pow_lt_mono_r; [reflexivity|]. unfold crafted_group.
  pose proof (Nat.mul_div_le 255 d ltac:(lia)). lia.
Qed.
Lemma crafted_divides d c : (3 <= d <= 31)%nat -> c <= 500 ->
  exists j, In (crafted_id d j) crafted_ids /\ N.divide (divisor d c) (crafted_id d j).
Proof.
  intros D C. set (k := crafted_group d). set (n := N.to_nat c).
  assert (K : (k <> 0)%nat).
  { unfold k, crafted_group. assert (8 <= 255 / d)%nat; [|lia]. change 8%nat with (255 / 31)%nat.
    apply Nat.div_le_compat_l. lia. }
  exists (n / k)%nat. split.
  - right. apply in_flat_map. exists d. split; [apply in_seq; lia|]. apply in_map, in_seq. fold k.
    assert (n / k <= 500 / k)%nat by (apply Nat.div_le_mono; [exact K|unfold n; lia]). lia.
  - apply prod_in. apply in_map_iff. exists (n mod k)%nat. fold k. split.
    + f_equal. pose proof (Nat.div_mod n k K). rewrite (Nat.mul_comm (n / k)). unfold n in *. lia.
    + apply in_seq. pose proof (Nat.mod_upper_bound n k K). lia.
Qed.
Lemma of_list_keys (l : list (bytes32 * bytes32)) k : In k (map fst (om_of_list b32_ltb l)) <-> In k (map fst l).
Proof.
  assert (G : forall l m, In k (map fst (fold_left (fun m (e : bytes32 * bytes32) => snd (om_insert b32_ltb (fst e) (snd e) m)) l m)) <->
     In k (map fst m) \/ In k (map fst l)).
  { clear l. induction l as [|[x v] l IH]; intros m; cbn [fold_left map fst snd In]; [tauto|]. rewrite IH.
    assert (J : In k (map fst (snd (om_insert b32_ltb x v m))) <-> x = k \/ In k (map fst m)); [|tauto].
    clear. induction m as [|[y w] r IH]; cbn [om_insert].
    - cbn. tauto.
    - destruct (b32_ltb x y) eqn:E1; [cbn; tauto|]. destruct (b32_ltb y x) eqn:E2.
      + destruct (om_insert b32_ltb x v r) as [o r']. cbn in *. rewrite IH. tauto.
      + assert (x = y) by (apply so_total; assumption). subst. cbn. tauto. }
  unfold om_of_list. rewrite G. cbn. tauto.
Qed.
Lemma of_list_length (l : list (bytes32 * bytes32)) : (length (om_of_list b32_ltb l) <= length l)%nat.
Proof.
  assert (G : forall l m, (length (fold_left (fun m (e : bytes32 * bytes32) => snd (om_insert b32_ltb (fst e) (snd e) m)) l m) <= length m + length l)%nat).
  { clear l. induction l as [|[x v] l IH]; intros m; cbn [fold_left length fst snd]; [lia|]. rewrite IH.
    pose proof (om_insert_length b32_ltb x v m) as L. destruct (om_get b32_ltb x m); lia. }
  exact (G l []).
Qed.
Lemma crafted_zero : In 0 crafted_ids.
Proof. left. reflexivity. Qed.
Lemma crafted_count : (length crafted_ids <=? 1100)%nat = true.
Proof. vm_compute. reflexivity. Qed.
Local Opaque crafted_ids crafted_id om_of_list.

Lemma crafted_no_fit d c : (3 <= d <= 31)%nat -> c <= 500 -> ~ fits (ms_messages crafted) d c.
Proof.
  intros D C F. destruct (crafted_divides d c D C) as [j [I V]]. destruct (crafted_bound d j D) as [Z B].
  assert (K : forall x, In x crafted_ids -> In (b32_of_N x) (map fst (ms_messages crafted))).
  { intros x Ix. apply (proj2 (of_list_keys (map (fun x => (b32_of_N x, b32_fill x00)) crafted_ids) _)).
    rewrite map_map. exact (in_map b32_of_N _ _ Ix). }
  pose proof (K _ I) as K1. pose proof (K 0 crafted_zero) as K0.
  unfold fits in F. rewrite <- (map_map fst (fun p => s_pos p c d)) in F.
  assert (E : s_pos (b32_of_N (crafted_id d j)) c d = s_pos (b32_of_N 0) c d).
  { unfold s_pos. fold (divisor d c). change (le_val (b32_of_N ?x)) with (N_of_b32 (b32_of_N x)).
    rewrite !N_of_b32_of_N, (N.mod_small _ _ B). rewrite (N.mod_0_l (2 ^ 256)) by discriminate.
    destruct (divisor_bound d c) as [Zd _]. rewrite N.mod_0_l by exact Zd. apply N.mod_divide; assumption. }
  assert (NE : b32_of_N (crafted_id d j) <> b32_of_N 0).
  { intros Q. apply (f_equal N_of_b32) in Q. rewrite !N_of_b32_of_N, (N.mod_small _ _ B), N.mod_0_l in Q by discriminate. exact (Z Q). }
  apply in_split in K1 as [a [b' Q]]. rewrite Q, map_app in F. cbn [map] in F. apply NoDup_remove_2 in F.
  rewrite Q in K0. apply F. rewrite E, <- map_app. apply (in_map (fun p => s_pos p c d)).
  apply in_app_or in K0 as [K0|[K0|K0]]; [apply in_or_app; left; exact K0|destruct (NE K0)|apply in_or_app; right; exact K0].
Qed.

Lemma crafted_valid : valid_source crafted.
Proof.
  split; [cbn; lia|]. split; [|split; [apply (om_of_list_sorted b32_ltb)|reflexivity]].
  cbn [crafted ms_messages]. pose proof (of_list_length (map (fun x => (b32_of_N x, b32_fill x00)) crafted_ids)) as L.
  rewrite map_length in L. pose proof crafted_count as Q. apply Nat.leb_le in Q. change u24_max with 16777215. lia.
Qed.
Lemma crafted_fails : exists n, (n <= 1100)%nat /\ length (ms_messages crafted) = n /\
  forall rng, try_commit crafted rng = Ret (Err (CantFitInMaxSlots n)).
Proof.
  exists (length (ms_messages crafted)). split; [|split; [reflexivity|]].
  - cbn [crafted ms_messages]. pose proof (of_list_length (map (fun x => (b32_of_N x, b32_fill x00)) crafted_ids)) as L.
    rewrite map_length in L. pose proof crafted_count as Q. apply Nat.leb_le in Q. lia.
  - intros rng. assert (S : ms_static_entropy crafted <> None) by discriminate.
    destruct (c05_first_fit crafted rng crafted_valid (or_introl S)) as [[Z _]|[[_ [_ E]]|[_ [t [_ [[A W] _]]]]]].
    + discriminate.
    + exact E.
    + exfalso. destruct A as [A [_ [A2 _]]]. cbn [crafted ms_min_depth] in A. exact (crafted_no_fit _ _ A A2 W).
Qed.
