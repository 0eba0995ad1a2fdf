(** Theorems: how deep a tree and how many attempts chosen protocols can force. *)
From Coq Require Import Sorting.Sorted.
From Verif Require Import Base BaseFacts OrdMap OrdMapFacts SpecCommit SpecDepth SpecValid MpcAtoms MpcTree MpcTreeProofs
  AvailProofs DepthData DepthProofs Steps BlockInv TheoremsMpc.
Local Open Scope nat_scope.

(** ** C103 *)
Lemma source_ids src : valid_source src -> NoDup (map fst (ms_messages src)).
Proof. intros V. apply (om_sorted_NoDup b32_ltb), V. Qed.

Lemma c103_criterion : forall src rng D
  (valid : valid_source src) (several : 2 <= length (ms_messages src)) (bound : D <= 31)
  (entropy : ms_static_entropy src <> None \/ rng <> None)
  (widths : enough (ms_min_depth src) (length (ms_messages src)) D),
  exists t, try_commit src rng = Ret (Ok t) /\ mt_depth t <= D.
Proof.
  intros src rng D V S B EN W.
  destruct (escape (ms_messages src) (ms_min_depth src) D S B (source_ids src V) W) as [d [c [L [A F]]]].
  destruct (c05_first_fit src rng V EN) as [[_ [Z _]]|[[_ [NO _]]|[_ [t [E [_ M]]]]]].
  - lia.
  - exfalso. exact (NO d c (conj A F)).
  - exists t. split; [exact E|]. specialize (M d c (conj A F)). unfold not_after in M. cbn [fst snd] in M. lia.
Qed.
Lemma c103_depth : forall src rng
  (valid : valid_source src) (several : 2 <= length (ms_messages src) <= 10) (shallow : ms_min_depth src <= 7)
  (entropy : ms_static_entropy src <> None \/ rng <> None),
  exists t, try_commit src rng = Ret (Ok t) /\ mt_depth t <= depth_limit (length (ms_messages src)).
Proof.
  intros src rng V S M EN. pose proof (limit_cases _ S) as [L _].
  apply c103_criterion; [exact V|lia|lia|exact EN|]. apply enough_limits; assumption.
Qed.
Lemma c103_two : forall src rng
  (valid : valid_source src) (two : length (ms_messages src) = 2) (room : ms_min_depth src <= 30)
  (entropy : ms_static_entropy src <> None \/ rng <> None),
  exists t, try_commit src rng = Ret (Ok t) /\ mt_depth t <= Nat.max 8 (S (ms_min_depth src)).
Proof.
  intros src rng V S M EN. destruct (Nat.le_gt_cases (ms_min_depth src) 7) as [L|L].
  - rewrite Nat.max_l by lia. replace 8 with (depth_limit (length (ms_messages src))) by (rewrite S; reflexivity). apply c103_depth; [exact V|lia|exact L|exact EN].
  - rewrite Nat.max_r by lia. apply c103_criterion; [exact V|lia|lia|exact EN|]. rewrite S. apply enough_two. lia.
Qed.

(** the product of the prime powers up to 128 *)
Definition lcm128 : N := prod [128; 81; 125; 49; 121; 13; 17; 19; 23; 29; 31; 37; 41; 43; 47; 53; 59; 61; 67; 71; 73; 79; 83; 89;
  97; 101; 103; 107; 109; 113; 127]%N.
Definition stubborn (min_depth : nat) : N :=
  if min_depth <=? 7 then lcm128 else (2 ^ N.of_nat min_depth * (2 ^ N.of_nat min_depth - 1))%N.
Definition stubborn_source (min_depth : nat) : multi_source :=
  MultiSource Sha256t min_depth [(b32_of_N 0, b32_fill x00); (b32_of_N (stubborn min_depth), b32_fill x00)] (Some 0%N).
Lemma stubborn_checked : forallb (fun m =>
    om_sorted b32_ltb (ms_messages (stubborn_source m)) &&
    match try_commit (stubborn_source m) None with
    | Ret (Ok t) => mt_depth t =? Nat.max 8 (S m) | _ => false end) (seq 0 31) = true.
Proof. vm_compute. reflexivity. Qed.
Lemma c103_reached : forall min_depth (room : min_depth <= 30), exists src t,
  valid_source src /\ length (ms_messages src) = 2 /\ ms_min_depth src = min_depth /\
  try_commit src None = Ret (Ok t) /\ mt_depth t = Nat.max 8 (S min_depth).
Proof.
  intros m R. pose proof stubborn_checked as C. rewrite forallb_forall in C. specialize (C m ltac:(apply in_seq; lia)).
  apply andb_prop in C as [C1 C2]. exists (stubborn_source m).
  destruct (try_commit (stubborn_source m) None) as [[t|]|]; try discriminate. exists t.
  split; [|split; [reflexivity|split; [reflexivity|split; [reflexivity|apply Nat.eqb_eq, C2]]]].
  split; [cbn; lia|]. split; [vm_compute; discriminate|]. split; [exact C1|vm_compute; reflexivity].
Qed.

(** *** A set of identifiers which never fits *)
(** zero and numbers which together are divisible by every width *)
Definition blocking_ids : list bytes32 := map b32_of_N (0%N :: blockers).
Lemma le_val_b32_of_N x : (x < 2 ^ 256)%N -> le_val (b32_of_N x) = x.
Proof. intros L. change (le_val (b32_of_N x)) with (N_of_b32 (b32_of_N x)). rewrite N_of_b32_of_N. apply N.mod_small, L. Qed.
Lemma of_N_inj256 a b : (a < 2 ^ 256)%N -> (b < 2 ^ 256)%N -> b32_of_N a = b32_of_N b -> a = b.
Proof. intros A B E. apply (f_equal (fun p : bytes32 => le_val p)) in E. rewrite !le_val_b32_of_N in E by assumption. exact E. Qed.
Lemma blocking_facts : NoDup blocking_ids /\ length blocking_ids = 280 /\ Forall (fun x => x < 2 ^ 256)%N (0%N :: blockers) /\
  ~ In 0%N blockers.
Proof.
  pose proof blockers_checked as C. apply andb_prop in C as [C C3]. apply andb_prop in C as [C1 C2].
  apply ascending_sorted, Sorted_StronglySorted in C1; [|exact N.lt_trans]. apply Nat.eqb_eq in C3. rewrite forallb_forall in C2.
  assert (F : Forall (fun x => x < 2 ^ 256)%N (0%N :: blockers)).
  { constructor; [reflexivity|]. apply Forall_forall. intros x I. apply N.ltb_lt, C2, I. }
  assert (ND : NoDup (0%N :: blockers)).
  { clear -C1. induction C1 as [|x l S IH A]; constructor; [|exact IH]. intros I. rewrite Forall_forall in A.
    specialize (A x I). lia. }
  split; [|split; [|split; [exact F|apply NoDup_cons_iff in ND; tauto]]].
  - unfold blocking_ids. clear -F ND. induction (0%N :: blockers) as [|x l IH]; cbn [map]; [constructor|].
    apply NoDup_cons_iff in ND as [NI ND]. apply Forall_cons_iff in F as [Fx F]. constructor; [|exact (IH F ND)].
    intros I. apply in_map_iff in I as [y [E I]]. rewrite Forall_forall in F. apply of_N_inj256 in E; [|apply F, I|exact Fx].
    congruence.
  - unfold blocking_ids. rewrite map_length. cbn [length]. rewrite C3. reflexivity.
Qed.
Lemma blocked_fits msgs m d c : incl blocking_ids (map fst msgs) -> allowed m (length msgs) d c -> ~ fits msgs d c.
Proof.
  intros I [A1 [_ [A3 A4]]] F. destruct blocking_facts as [_ [_ [Fb NZ]]].
  destruct (blocked_width d c) as [b [Ib Dv]]; [lia|exact A3| |].
  { destruct (Nat.eqb d m); lia. }
  assert (Z : (b <> 0)%N) by (intros ->; contradiction).
  rewrite Forall_forall in Fb. assert (Bb : (b < 2 ^ 256)%N) by (apply Fb; right; exact Ib).
  assert (I0 : In (b32_of_N 0) (map fst msgs)) by (apply I; unfold blocking_ids; apply in_map; left; reflexivity).
  assert (I1 : In (b32_of_N b) (map fst msgs)) by (apply I; unfold blocking_ids; apply in_map; right; exact Ib).
  unfold fits in F. rewrite <- (map_map fst (fun p => s_pos p c d)) in F.
  assert (P : s_pos (b32_of_N 0) c d = s_pos (b32_of_N b) c d).
  { unfold s_pos. rewrite !le_val_b32_of_N by (exact Bb || reflexivity). rewrite N.mod_0_l by lia. symmetry.
    apply N.mod_divide; [lia|exact Dv]. }
  assert (NE : b32_of_N 0 <> b32_of_N b) by (intros E; apply of_N_inj256 in E; [lia|reflexivity|exact Bb]).
  clear -F I0 I1 P NE. induction (map fst msgs) as [|x l IH]; [destruct I0|]. cbn [map] in F. apply NoDup_cons_iff in F as [F1 F2].
  destruct I0 as [->|I0].
  - destruct I1 as [E|I1]; [contradiction|]. apply F1. rewrite P. apply (in_map (fun p => s_pos p c d)), I1.
  - destruct I1 as [->|I1]; [|exact (IH F2 I0 I1)]. apply F1. rewrite <- P. apply (in_map (fun p => s_pos p c d)), I0.
Qed.
Lemma c103_blocked : exists ids : list bytes32, NoDup ids /\ length ids = 280 /\
  forall src rng (valid : valid_source src) (contained : incl ids (map fst (ms_messages src)))
    (entropy : ms_static_entropy src <> None \/ rng <> None),
  try_commit src rng = Ret (Err (CantFitInMaxSlots (length (ms_messages src)))).
Proof.
  exists blocking_ids. destruct blocking_facts as [ND [L _]]. split; [exact ND|]. split; [exact L|].
  intros src rng V I EN. destruct (c05_first_fit src rng V EN) as [[_ [Z _]]|[[_ [_ E]]|[_ [t [_ [[A F] _]]]]]].
  - exfalso. apply NoDup_incl_length in I; [|exact ND]. rewrite map_length in I. lia.
  - exact E.
  - exfalso. exact (blocked_fits _ _ _ _ I A F).
Qed.

(** *** Attempts *)
Lemma counted_all_ok msgs c d : forall m p, exists b m' k, counted_all msgs c d m p = (b, m', (p + k)%N) /\
  (k <= N.of_nat (length msgs))%N /\ (msgs <> [] -> (1 <= k)%N) /\
  match place msgs c d m with Some m2 => b = true /\ m' = m2 | None => b = false end.
Proof.
  induction msgs as [|[q x] msgs IH]; intros m p; cbn [counted_all place].
  - exists true, m, 0%N. rewrite N.add_0_r. cbn. split; [reflexivity|]. split; [lia|]. split; [congruence|auto].
  - destruct (om_insert N.ltb (protocol_id_pos q c d) (q, x) m) as [[o|] m1].
    + exists false, m1, 1%N. cbn [length]. split; [reflexivity|]. split; [lia|]. split; [lia|reflexivity].
    + destruct (IH m1 (p + 1)%N) as [b [m' [k [E [K1 [_ K3]]]]]]. exists b, m', (1 + k)%N. rewrite E. cbn [length].
      split; [f_equal; lia|]. split; [lia|]. split; [lia|exact K3].
Qed.
Lemma counted_attempts_ok msgs d n : forall c a p, exists k j,
  counted_attempts n (N.of_nat c) msgs d a p = (try_cofactors (map N.of_nat (seq c n)) msgs d, a + k, p + j)%N /\
  (j <= k * N.of_nat (length msgs))%N /\ (msgs <> [] -> k <= j)%N /\
  match try_cofactors (map N.of_nat (seq c n)) msgs d with
  | Some (c', _) => (N.of_nat c + k = c' + 1)%N | None => k = N.of_nat n end.
Proof.
  induction n as [|n IH]; intros c a p; cbn [seq map try_cofactors counted_attempts].
  - exists 0%N, 0%N. rewrite !N.add_0_r. split; [reflexivity|]. split; [lia|]. split; [lia|reflexivity].
  - destruct (counted_all_ok msgs (N.of_nat c) d [] p) as [b [m' [k [E [K1 [K2 K3]]]]]]. rewrite E.
    destruct (place msgs (N.of_nat c) d []) as [m2|].
    + destruct K3 as [-> ->]. exists 1%N, k. split; [reflexivity|]. split; [lia|]. split; [exact K2|lia].
    + subst b. destruct (IH (S c) (a + 1)%N (p + k)%N) as [k2 [j2 [E2 [J1 [J2 J3]]]]].
      replace (N.of_nat c + 1)%N with (N.of_nat (S c)) by lia. rewrite E2. exists (1 + k2)%N, (k + j2)%N.
      split; [f_equal; [f_equal|]; lia|]. split; [lia|]. split; [intros X; specialize (K2 X); specialize (J2 X); lia|].
      destruct (try_cofactors (map N.of_nat (seq (S c) n)) msgs d) as [[c' ?]|]; lia.
Qed.

Lemma below_step m n d k : attempts_at m n d = k -> forall l, fold_right N.add 0%N (map (attempts_at m n) (d :: l)) =
  (k + fold_right N.add 0%N (map (attempts_at m n) l))%N.
Proof. intros <- l. reflexivity. Qed.
Definition from (m n d k : nat) : N := fold_right N.add 0%N (map (attempts_at m n) (seq d k)).
Lemma counted_search_ok msgs m : forall fuel d w a p, m <= d <= 31 ->
  w = (if Nat.eqb d m then 1 else 2 ^ N.of_nat (d - 1))%N ->
  match commit_loop fuel msgs d w with
  | Panic q => counted_search fuel msgs d w a p = Panic q
  | Ret r => exists k j, counted_search fuel msgs d w a p = Ret (r, a + k, p + j)%N /\
      (j <= k * N.of_nat (length msgs))%N /\ (msgs <> [] -> k <= j)%N /\
      match r with
      | Ok (d', c, _) => d <= d' /\ k = (from m (length msgs) d (d' - d) + c + 1)%N
      | Err _ => k = from m (length msgs) d (32 - d)
      end
  end.
Proof.
  induction fuel as [|fuel IH]; intros d w a p Dd W; cbn [commit_loop counted_search]; [reflexivity|].
  assert (P16 : (N.min w 500 mod 2 ^ 16 = N.min w 500)%N) by (apply N.mod_small; change (2 ^ 16)%N with 65536%N; lia).
  rewrite P16. unfold cofactor_attempts.
  assert (Rng : N_range (N.min w 500 + 1) = map N.of_nat (seq 0 (S (N.to_nat (N.min w 500))))).
  { unfold N_range. f_equal. f_equal. lia. }
  assert (At : attempts_at m (length msgs) d =
    if (N.of_nat (length msgs) <=? width_of d)%N then (1 + N.min 500 w)%N else 0%N).
  { unfold attempts_at, width_of. rewrite W. reflexivity. }
  assert (Next : w = w -> forall a1 p1 k1 j1, (a1 = a + k1)%N -> (p1 = p + j1)%N -> k1 = attempts_at m (length msgs) d ->
    (j1 <= k1 * N.of_nat (length msgs))%N -> (msgs <> [] -> k1 <= j1)%N ->
    match (match u5_checked_add d 1 with
           | None => Ret (Err (CantFitInMaxSlots (length msgs)))
           | Some depth' => commit_loop fuel msgs depth' (width_of d) end) with
    | Panic q => (match u5_checked_add d 1 with
           | None => Ret (Err (CantFitInMaxSlots (length msgs)), a1, p1)
           | Some depth' => counted_search fuel msgs depth' (width_of d) a1 p1 end) = Panic q
    | Ret r => exists k j, (match u5_checked_add d 1 with
           | None => Ret (Err (CantFitInMaxSlots (length msgs)), a1, p1)
           | Some depth' => counted_search fuel msgs depth' (width_of d) a1 p1 end) = Ret (r, a + k, p + j)%N /\
      (j <= k * N.of_nat (length msgs))%N /\ (msgs <> [] -> k <= j)%N /\
      match r with
      | Ok (d', c, _) => d <= d' /\ k = (from m (length msgs) d (d' - d) + c + 1)%N
      | Err _ => k = from m (length msgs) d (32 - d)
      end
    end).
  { intros _ a1 p1 k1 j1 Ea Ep Ek J1 J2. unfold u5_checked_add, u5_max. destruct (Nat.leb_spec (d + 1) 31) as [L|L].
    - specialize (IH (d + 1) (width_of d) a1 p1 ltac:(lia)).
      replace (d + 1 =? m) with false in IH by (symmetry; apply Nat.eqb_neq; lia).
      replace (d + 1 - 1) with d in IH by lia. specialize (IH eq_refl).
      destruct (commit_loop fuel msgs (d + 1) (width_of d)) as [r|q]; [|exact IH].
      destruct IH as [k [j [E [K1 [K2 K3]]]]]. exists (k1 + k)%N, (j1 + j)%N. rewrite E, Ea, Ep.
      split; [do 2 f_equal; [f_equal|]; lia|]. split; [lia|]. split; [intros X; specialize (J2 X); specialize (K2 X); lia|].
      destruct r as [[[d' c] ?]|e].
      + destruct K3 as [K3 K4]. split; [lia|]. replace (d' - d) with (S (d' - S d)) by lia. unfold from in *.
        cbn [seq]. rewrite (below_step _ _ _ k1) by (symmetry; exact Ek). rewrite Nat.add_1_r in K4. lia.
      + replace (32 - d) with (S (32 - S d)) by lia. unfold from in *. cbn [seq].
        rewrite (below_step _ _ _ k1) by (symmetry; exact Ek). rewrite Nat.add_1_r in K3. lia.
    - exists k1, j1. rewrite Ea, Ep. split; [reflexivity|]. split; [exact J1|]. split; [exact J2|].
      replace (32 - d) with 1 by lia. unfold from. cbn [seq]. rewrite (below_step _ _ _ k1) by (symmetry; exact Ek).
      cbn. lia. }
  specialize (Next eq_refl).
  destruct (N.of_nat (length msgs) <=? width_of d)%N.
  - rewrite Rng. destruct (counted_attempts_ok msgs d (S (N.to_nat (N.min w 500))) 0 a p) as [k [j [E [J1 [J2 J3]]]]].
    change (N.of_nat 0) with 0%N in E. rewrite E.
    destruct (try_cofactors _ msgs d) as [[c' m']|].
    + exists k, j. split; [reflexivity|]. split; [exact J1|]. split; [exact J2|]. split; [lia|]. rewrite Nat.sub_diag.
      change (N.of_nat 0) with 0%N in J3. cbn. lia.
    + apply (Next _ _ k j eq_refl eq_refl); [rewrite At; lia|exact J1|exact J2].
  - apply (Next a p 0%N 0%N); [lia|lia|symmetry; exact At|lia|lia].
Qed.
Lemma attempts_at_mono m n d : (attempts_at m n d <= attempts_at m 0 d)%N.
Proof.
  unfold attempts_at. change (N.of_nat 0) with 0%N. replace (0 <=? 2 ^ N.of_nat d)%N with true by (symmetry; apply N.leb_le; lia).
  destruct (_ <=? _)%N; lia.
Qed.
Lemma sum_mono (f g : nat -> N) l : (forall x, f x <= g x)%N ->
  (fold_right N.add 0 (map f l) <= fold_right N.add 0 (map g l))%N.
Proof. intros L. induction l as [|x l IH]; cbn [map fold_right]; [lia|]. specialize (L x). lia. Qed.
Lemma attempts_total m n d : m <= 31 -> d <= 32 -> (attempts_below m n d <= 11544)%N.
Proof.
  intros M D. assert (C : forallb (fun m => (attempts_below m 0 32 <=? 11544)%N) (seq 0 32) = true) by reflexivity.
  rewrite forallb_forall in C. specialize (C m ltac:(apply in_seq; lia)). apply N.leb_le in C.
  etransitivity; [|exact C]. etransitivity; [apply sum_mono, attempts_at_mono|]. unfold attempts_below.
  replace (32 - m) with ((d - m) + (32 - m - (d - m))) by lia. rewrite seq_app, map_app, fold_right_app.
  generalize (fold_right N.add 0%N (map (attempts_at m 0) (seq (m + (d - m)) (32 - m - (d - m))))). intros z. clear.
  induction (seq m (d - m)) as [|x l IH]; cbn [map fold_right]; lia.
Qed.

Lemma c103_attempts : forall src rng r
  (valid : valid_source src) (result : try_commit src rng = Ret r),
  let m := ms_min_depth src in
  let n := length (ms_messages src) in
  exists attempts positions, counted_commit src rng = Ret (r, attempts, positions) /\
    (attempts <= 11544)%N /\ (positions <= attempts * N.of_nat n)%N /\ (n <> 0 -> (attempts <= positions)%N) /\
    match r with
    | Ok t => attempts = (attempts_below m n (mt_depth t) + mt_cofactor t + 1)%N
    | Err (CantFitInMaxSlots _) => attempts = attempts_below m n 32
    | Err _ => attempts = 0%N
    end.
Proof.
  intros src rng r V R m n. unfold try_commit, counted_commit in *. fold m n in R. fold m n.
  destruct ((m =? 0) && (n =? 0)) eqn:Z.
  { injection R as <-. exists 0%N, 0%N. split; [reflexivity|]. lia. }
  destruct (2 ^ 31 <? N.of_nat n)%N eqn:Z2.
  { injection R as <-. exists 0%N, 0%N. split; [reflexivity|]. lia. }
  apply bind_inv in R as [e [E R]]. rewrite E. cbn [bind].
  pose proof (counted_search_ok (ms_messages src) m 32 m 1%N 0%N 0%N) as C.
  rewrite Nat.eqb_refl in C. specialize (C ltac:(pose proof (proj1 V); unfold m; lia) eq_refl).
  apply bind_inv in R as [r1 [E1 R]]. rewrite E1 in C. destruct C as [k [j [C [J1 [J2 J3]]]]]. rewrite C. cbn [bind].
  rewrite !N.add_0_l.
  assert (NE : n <> 0 -> ms_messages src <> []) by (unfold n; destruct (ms_messages src); cbn; congruence).
  destruct r1 as [[[d c] mp]|er].
  - injection R as <-. exists k, j. split; [reflexivity|]. cbn [mt_depth mt_cofactor]. destruct J3 as [Dd K]. fold n in K.
    pose proof (commit_loop_spec 32 (ms_messages src) m m 1) as S. rewrite E1 in S.
    destruct S as [[[_ A1] [A2 [A3 A4]]] _]; [pose proof (proj1 V); unfold m; lia|lia|unfold prev_of; rewrite Nat.eqb_refl; reflexivity| |].
    { intros d' c' L [Al _]. lia. }
    fold n in A2. split; [|split; [exact J1|split; [intros X; apply J2, NE, X|exact K]]].
    etransitivity; [|apply (attempts_total m n (S d)); [apply V|lia]]. unfold attempts_below.
    replace (S d - m) with ((d - m) + 1) by lia. rewrite seq_app, map_app, fold_right_app. cbn [seq map fold_right].
    replace (m + (d - m)) with d by lia. rewrite N.add_0_r.
    assert (At : attempts_at m n d = (1 + N.min 500 (if Nat.eqb d m then 1 else 2 ^ N.of_nat (d - 1)))%N).
    { unfold attempts_at. apply N.leb_le in A2. rewrite A2. reflexivity. }
    rewrite At.
    assert (G : forall l z, (fold_right N.add z l = fold_right N.add 0 l + z)%N).
    { clear. intros l z. induction l as [|x l IH]; cbn [fold_right]; lia. }
    rewrite G. unfold from in K. destruct (Nat.eqb d m); lia.
  - injection R as <-. exists k, j. split; [reflexivity|]. fold n in J3.
    assert (B : attempts_below m n 32 = k) by (symmetry; exact J3).
    split; [rewrite <- B; apply attempts_total; [unfold m; apply V|lia]|]. split; [exact J1|].
    split; [intros X; apply J2, NE, X|].
    pose proof (commit_loop_spec 32 (ms_messages src) m m 1) as S. rewrite E1 in S.
    destruct S as [-> _]; [pose proof (proj1 V); unfold m; lia|lia|unfold prev_of; rewrite Nat.eqb_refl; reflexivity| |].
    { intros d' c' L [Al _]. lia. }
    symmetry. exact B.
Qed.
