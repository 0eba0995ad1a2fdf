(** Counting: lists of all ids, classes of ids with one position, sequences with different positions. *)
From Verif Require Import Base BaseFacts SpecCommit SpecCount MpcTree.
From Coq Require Import Permutation.
Local Open Scope nat_scope.

Lemma NoDup_app_intro {A} (a b : list A) : NoDup a -> NoDup b -> (forall x, In x a -> In x b -> False) -> NoDup (a ++ b).
Proof.
  induction 1 as [|x a N ND IH]; intros B X; cbn; [exact B|]. constructor.
  - intros I. apply in_app_or in I as [I|I]; [exact (N I)|]. apply (X x); [left; reflexivity|exact I].
  - apply IH; [exact B|]. intros y Hy. apply X. right. exact Hy.
Qed.
Lemma NoDup_flat_map {A B} (f : A -> list B) l :
  NoDup l -> (forall a, In a l -> NoDup (f a)) -> (forall a b x, In a l -> In b l -> In x (f a) -> In x (f b) -> a = b) ->
  NoDup (flat_map f l).
Proof.
  induction 1 as [|a l N ND IH]; intros F D; cbn; [constructor|]. apply NoDup_app_intro.
  - apply F. left. reflexivity.
  - apply IH; [intros; apply F; right; assumption|]. intros x y z Hx Hy. apply D; right; assumption.
  - intros x Hx Hy. apply in_flat_map in Hy as (b & Hb & Hy). apply N.
    replace a with b; [exact Hb|]. symmetry. eapply D; [left; reflexivity|right; exact Hb|exact Hx|exact Hy].
Qed.
Lemma flat_map_length {A B} (f : A -> list B) l k : (forall a, In a l -> length (f a) = k) -> length (flat_map f l) = length l * k.
Proof.
  induction l as [|a l IH]; intros F; cbn; [reflexivity|]. rewrite app_length, IH by (intros; apply F; right; assumption).
  rewrite (F a) by (left; reflexivity). reflexivity.
Qed.

(** All sequences of [n] elements of [S] *)
Fixpoint tuples {A} (S : list A) (n : nat) : list (list A) :=
  match n with O => [[]] | Datatypes.S k => flat_map (fun l => map (fun x => x :: l) S) (tuples S k) end.
Lemma tuples_in {A} (S : list A) n : (forall x, In x S) -> forall l, In l (tuples S n) <-> length l = n.
Proof.
  intros F. induction n as [|n IH]; intros l; cbn.
  - split; [intros [<-|[]]; reflexivity|]. destruct l; [left; reflexivity|discriminate].
  - rewrite in_flat_map. split.
    + intros (m & Hm & Hl). apply in_map_iff in Hl as (x & <- & _). cbn. f_equal. apply IH, Hm.
    + destruct l as [|x l]; [discriminate|]. intros E. exists l. split; [apply IH; cbn in E; lia|]. apply in_map_iff. exists x. split; [reflexivity|apply F].
Qed.
Lemma tuples_length {A} (S : list A) n : N.of_nat (length (tuples S n)) = (N.of_nat (length S) ^ N.of_nat n)%N.
Proof.
  induction n as [|n IH]; [reflexivity|]. cbn [tuples]. rewrite (flat_map_length _ _ (length S)) by (intros; apply map_length).
  rewrite Nat2N.inj_mul, IH, Nat2N.inj_succ, N.pow_succ_r'. lia.
Qed.
Lemma tuples_NoDup {A} (S : list A) n : NoDup S -> NoDup (tuples S n).
Proof.
  intros N. induction n as [|n IH]; [repeat constructor; intros []|]. cbn [tuples]. apply NoDup_flat_map; [exact IH| |].
  - intros l _. apply FinFun.Injective_map_NoDup; [intros a b E; congruence|exact N].
  - intros a b x _ _ Ha Hb. apply in_map_iff in Ha as (u & <- & _). apply in_map_iff in Hb as (v & E & _). congruence.
Qed.

Definition every_byte : list byte := map (fun n => byte_of_N (N.of_nat n)) (seq 0 256).
Lemma every_byte_in b : In b every_byte.
Proof. destruct b; vm_compute; repeat (first [left; reflexivity|right]). Qed.
Lemma every_byte_NoDup : NoDup every_byte.
Proof.
  apply (NoDup_map_inv Byte.to_N).
  assert (E : map Byte.to_N every_byte = map N.of_nat (seq 0 256)) by (vm_compute; reflexivity).
  rewrite E. apply FinFun.Injective_map_NoDup; [intros a b; apply Nat2N.inj|apply seq_NoDup].
Qed.

Definition mk32 (l : list byte) : bytes32 := match b32_of l with Some b => b | None => b32_fill x00 end.
Lemma mk32_b32 l : length l = 32 -> b32 (mk32 l) = l.
Proof.
  intros E. unfold mk32, b32_of. destruct (bool_dec (length l =? 32) true) as [e|n]; [reflexivity|].
  exfalso. apply n. rewrite E. reflexivity.
Qed.
Lemma all_ids : exists S : list bytes32, NoDup S /\ (forall x, In x S) /\ N.of_nat (length S) = (2 ^ 256)%N.
Proof.
  exists (map mk32 (tuples every_byte 32)). split; [|split].
  - apply (NoDup_map_inv b32). rewrite map_map.
    assert (E : map (fun x => b32 (mk32 x)) (tuples every_byte 32) = tuples every_byte 32).
    { rewrite <- (map_id (tuples every_byte 32)) at 2. apply map_ext_in. intros l Hl. apply mk32_b32.
      apply (tuples_in every_byte 32 every_byte_in) in Hl. exact Hl. }
    rewrite E. apply tuples_NoDup, every_byte_NoDup.
  - intros x. apply in_map_iff. exists (b32 x). split; [apply b32_inj, mk32_b32, b32_length|].
    apply (tuples_in every_byte 32 every_byte_in), b32_length.
  - rewrite map_length, tuples_length. reflexivity.
Qed.

Lemma filter_split {A} (f g h : A -> bool) l : (forall x, f x = true <-> g x = true \/ h x = true) ->
  (forall x, g x = true -> h x = true -> False) -> length (filter f l) = length (filter g l) + length (filter h l).
Proof.
  intros E X. induction l as [|a l IH]; [reflexivity|]. cbn. specialize (E a). specialize (X a).
  destruct (f a), (g a), (h a); cbn; try lia; exfalso; intuition discriminate.
Qed.

(** Ids with one position *)
Section Classes.
Context (D : nat) (HD : D <= 31).
Definition place (p : bytes32) : N := s_pos p 0 D.
Let M := (2 ^ N.of_nat D)%N.
Let q := (2 ^ N.of_nat (256 - D))%N.

Lemma qM : (q * M = 2 ^ 256)%N.
Proof using HD. unfold q, M. rewrite <- N.pow_add_r. f_equal. lia. Qed.
Lemma M_pos : M <> 0%N.
Proof. apply N.pow_nonzero. discriminate. Qed.
Lemma place_mod p : place p = (N_of_b32 p mod M)%N.
Proof. unfold place, s_pos, N_of_b32. fold M. pose proof M_pos. replace (N.max 1 (M - 0)) with M by lia. reflexivity. Qed.
Lemma place_lt p : (place p < M)%N.
Proof. rewrite place_mod. apply N.mod_lt, M_pos. Qed.
Lemma N_of_b32_inj a b : N_of_b32 a = N_of_b32 b -> a = b.
Proof.
  intros E. apply b32_inj. unfold N_of_b32 in E. rewrite <- (le_of_val (b32 a)), <- (le_of_val (b32 b)).
  rewrite !b32_length, E. reflexivity.
Qed.

Context (S : list bytes32) (SN : NoDup S) (SI : forall x, In x S) (SL : N.of_nat (length S) = (2 ^ 256)%N).
Lemma class_count i : (i < M)%N -> N.of_nat (length (filter (fun p => N.eqb (place p) i) S)) = q.
Proof.
  intros Li. pose proof qM as QM. pose proof M_pos as MP. generalize dependent q. intros k QM.
  set (F := filter _ S). set (G := map (fun j => b32_of_N (i + N.of_nat j * M)) (seq 0 (N.to_nat k))).
  assert (V : forall j, j < N.to_nat k -> N_of_b32 (b32_of_N (i + N.of_nat j * M)) = (i + N.of_nat j * M)%N).
  { intros j Lj. rewrite N_of_b32_of_N. apply N.mod_small. nia. }
  assert (GL : length G = N.to_nat k) by (unfold G; rewrite map_length, seq_length; reflexivity).
  assert (GN : NoDup G).
  { apply (NoDup_map_inv N_of_b32). unfold G. rewrite map_map.
    assert (E : map (fun j => N_of_b32 (b32_of_N (i + N.of_nat j * M))) (seq 0 (N.to_nat k)) =
                map (fun j => (i + N.of_nat j * M)%N) (seq 0 (N.to_nat k))).
    { apply map_ext_in. intros j Hj. apply V. apply in_seq in Hj. lia. }
    rewrite E. apply FinFun.Injective_map_NoDup; [intros a b Q; nia|apply seq_NoDup]. }
  assert (FN : NoDup F) by (apply NoDup_filter, SN).
  assert (GF : incl G F).
  { intros x Hx. apply in_map_iff in Hx as (j & <- & Hj). apply in_seq in Hj. apply filter_In. split; [apply SI|].
    apply N.eqb_eq. rewrite place_mod, V by lia. rewrite N.mod_add by exact MP. apply N.mod_small, Li. }
  assert (FG : incl F G).
  { intros x Hx. apply filter_In in Hx as [_ Hx]. apply N.eqb_eq in Hx. rewrite place_mod in Hx.
    pose proof (N.div_mod (N_of_b32 x) M MP) as DM. rewrite Hx in DM. pose proof (N_of_b32_bound x) as B.
    assert (L : (N_of_b32 x / M < k)%N) by (apply N.div_lt_upper_bound; [exact MP|lia]).
    set (z := (N_of_b32 x / M)%N) in *. clearbody z.
    apply in_map_iff. exists (N.to_nat z). split; [|apply in_seq; lia].
    apply N_of_b32_inj. rewrite V by lia. rewrite N2Nat.id. lia. }
  pose proof (NoDup_incl_length GN GF) as L1. pose proof (NoDup_incl_length FN FG) as L2.
  rewrite GL in *. assert (E : length F = N.to_nat k) by lia. rewrite E. apply N2Nat.id.
Qed.

Definition away (ps : list N) (x : bytes32) : bool := negb (existsb (N.eqb (place x)) ps).
Lemma away_true ps x : away ps x = true <-> ~ In (place x) ps.
Proof.
  unfold away. rewrite negb_true_iff. split.
  - intros E I. assert (existsb (N.eqb (place x)) ps = true); [|congruence].
    apply existsb_exists. exists (place x). split; [exact I|apply N.eqb_refl].
  - intros N. destruct (existsb _ ps) eqn:E; [|reflexivity]. exfalso. apply existsb_exists in E as (y & Hy & E).
    apply N.eqb_eq in E. subst y. exact (N Hy).
Qed.
Lemma away_count ps : NoDup ps -> (forall i, In i ps -> (i < M)%N) ->
  (N.of_nat (length (filter (away ps) S)) + N.of_nat (length ps) * q = 2 ^ 256)%N.
Proof.
  induction 1 as [|i ps N ND IH]; intros B.
  - assert (E : filter (away []) S = S).
    { clear. induction S as [|a l IH]; [reflexivity|]. cbn. rewrite IH. reflexivity. }
    rewrite E, SL. cbn [length]. lia.
  - specialize (IH (fun j Hj => B j (or_intror Hj))). pose proof (class_count i (B i (or_introl eq_refl))) as C.
    rewrite (filter_split (away ps) (away (i :: ps)) (fun p => N.eqb (place p) i)) in IH.
    + rewrite Nat2N.inj_add, C in IH. cbn [length]. lia.
    + intros x. rewrite !away_true, N.eqb_eq. cbn. split.
      * intros A. destruct (N.eq_dec (place x) i) as [E|E]; [right; exact E|left]. intros [Q|Q]; [congruence|exact (A Q)].
      * intros [A|A]; [tauto|]. rewrite A. exact N.
    + intros x A E. apply away_true in A. apply N.eqb_eq in E. apply A. left. congruence.
Qed.

Fixpoint good (n : nat) : list (list bytes32) :=
  match n with
  | O => [[]]
  | Datatypes.S k => flat_map (fun l => map (fun x => x :: l) (filter (away (map place l)) S)) (good k)
  end.
Lemma good_in n : forall l, In l (good n) <-> length l = n /\ spread D l.
Proof.
  induction n as [|n IH]; intros l; cbn.
  - split; [intros [<-|[]]; split; [reflexivity|constructor]|]. destruct l; [left; reflexivity|intros [E _]; discriminate].
  - rewrite in_flat_map. split.
    + intros (m & Hm & Hl). apply IH in Hm as [E P]. apply in_map_iff in Hl as (x & <- & Hx).
      apply filter_In in Hx as [_ Hx]. apply away_true in Hx. split; [cbn; lia|]. constructor; [exact Hx|exact P].
    + destruct l as [|x l]; [intros [E _]; discriminate|]. intros [E P]. inversion P; subst. exists l.
      split; [apply IH; split; [cbn in E; lia|assumption]|]. apply in_map_iff. exists x. split; [reflexivity|]. apply filter_In. split; [apply SI|].
      apply away_true. assumption.
Qed.
Lemma good_NoDup n : NoDup (good n).
Proof.
  induction n as [|n IH]; [repeat constructor; intros []|]. cbn [good]. apply NoDup_flat_map; [exact IH| |].
  - intros l _. apply FinFun.Injective_map_NoDup; [intros a b E; congruence|apply NoDup_filter, SN].
  - intros a b x _ _ Ha Hb. apply in_map_iff in Ha as (u & <- & _). apply in_map_iff in Hb as (v & E & _). congruence.
Qed.
Lemma good_length n : N.of_nat (length (good n)) = choices D n.
Proof.
  induction n as [|n IH]; [reflexivity|]. cbn [good choices].
  rewrite (flat_map_length _ _ (N.to_nat (2 ^ 256 - N.of_nat n * q))).
  - rewrite Nat2N.inj_mul, N2Nat.id, IH. reflexivity.
  - intros l Hl. apply good_in in Hl as [E P]. rewrite map_length.
    pose proof (away_count (map place l) P) as C. rewrite map_length, E in C.
    assert (X : (N.of_nat (length (filter (away (map place l)) S)) + N.of_nat n * q = 2 ^ 256)%N).
    { apply C. intros i Hi. apply in_map_iff in Hi as (x & <- & _). apply place_lt. }
    lia.
Qed.
End Classes.
