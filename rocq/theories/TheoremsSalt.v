(** C113: ids of values with a secret part tell nothing about the values to adversaries asking few hashes. *)
From Verif Require Import Base BaseFacts Strict Engine SpecHash SpecCodec SpecEngine SpecMerkle SpecCount SpecGame SpecHideGame SpecIdGame SpecSalt.
From Verif Require Import StrictProofs EngineProofs CountProofs GameProofs GameHideProofs TheoremsMisc TheoremsGame TheoremsCount TheoremsHideGame TheoremsIdGame.
Local Open Scope nat_scope.

(** ** Numbers which differ by little *)
Definition near (a b d : N) : Prop := (a <= b + d /\ b <= a + d)%N.
Lemma near_trans a b c d d' : near a b d -> near b c d' -> near a c (d + d').
Proof. unfold near. lia. Qed.
Lemma near_le a b d d' : near a b d -> (d <= d')%N -> near a b d'.
Proof. unfold near. lia. Qed.
Lemma near_mul a b d k : near a b d -> near (a * k) (b * k) (d * k).
Proof.
  intros [L R]. split.
  - rewrite <- N.mul_add_distr_r. apply N.mul_le_mono_r, L.
  - rewrite <- N.mul_add_distr_r. apply N.mul_le_mono_r, R.
Qed.
Lemma near_sum {X} (g h d : X -> N) L : (forall x, In x L -> near (g x) (h x) (d x)) -> near (sum g L) (sum h L) (sum d L).
Proof.
  intros E. split; rewrite <- sum_add; apply sum_le; intros x I; apply (E x I).
Qed.

(** ** Values as tags and bytes *)
Definition tag_bytes : Type := list byte * (N -> list byte).
Definition pre_of (U : list (list byte)) (d : tag_bytes) (e : N) (f : list bytes32) : list byte :=
  b32 (table U f (fst d)) ++ b32 (table U f (fst d)) ++ snd d e.
Definition p_val (d : tag_bytes) (e : N) : prog bytes32 := Ask (fst d) (fun th => Ask (b32 th ++ b32 th ++ snd d e) Done).
Lemma p_val_exec U f d e : exec (table U f) (p_val d e) = table U f (pre_of U d e f).
Proof. reflexivity. Qed.
Definition good_secret (n : nat) (Es : list N) (d : tag_bytes) : Prop :=
  length (fst d) < 64 /\ (forall e, In e Es -> length (snd d e) + 64 <= n) /\
  (forall e e', In e Es -> In e' Es -> snd d e = snd d e' -> e = e').
Lemma p_val_modest n Es d e : good_secret n Es d -> In e Es -> modest n 2 (p_val d e).
Proof.
  intros (T & L & _) I. specialize (L e I). cbn. split; [lia|]. intros th. rewrite !app_length, b32_length. split; [lia|]. intros; exact Logic.I.
Qed.
Fixpoint ids_list (U : list (list byte)) (f : list bytes32) (ds : list tag_bytes) (es : list N) : list bytes32 :=
  match ds, es with d :: ds', e :: es' => table U f (pre_of U d e f) :: ids_list U f ds' es' | _, _ => [] end.

Section Games.
Context (n : nat) (U : list (list byte)) (UU : universe n U) (Fs : list (list bytes32)) (Cs : list bytes32) (Es : list N).
Hypothesis LF : lists_all Fs (fun f => length f = length U).
Hypothesis NC : NoDup Cs.
Hypothesis IC : forall c, In c Cs.
Hypothesis NE : NoDup Es.
Let K := N.of_nat (length Cs).
Let S := N.of_nat (length Es).
Let F := N.of_nat (length Fs).

(** Secrets drawn one after the other *)
Fixpoint real_sum (ds : list tag_bytes) (B : list bytes32 -> prog bool) : N :=
  match ds with
  | [] => sum (fun f => ind (exec (table U f) (B []))) Fs
  | d :: ds' => sum (fun e => real_sum ds' (fun ids => andthen (p_val d e) (fun id => B (id :: ids)))) Es
  end.
Fixpoint noise_sum (r : nat) (B : list bytes32 -> prog bool) : N :=
  match r with
  | O => sum (fun f => ind (exec (table U f) (B []))) Fs
  | Datatypes.S r' => sum (fun c => noise_sum r' (fun ids => B (c :: ids))) Cs
  end.
Lemma ns_sum r : forall B, noise_sum r B = sum (fun cs => sum (fun f => ind (exec (table U f) (B cs))) Fs) (tuples Cs r).
Proof.
  induction r as [|r IH]; intros B; cbn [noise_sum tuples].
  - cbn [sum fold_right]. rewrite N.add_0_r. reflexivity.
  - rewrite (sum_ext _ (fun c => sum (fun cs => sum (fun f => ind (exec (table U f) (B (c :: cs)))) Fs) (tuples Cs r)) Cs)
      by (intros c _; apply IH).
    rewrite sum_swap. clear IH. induction (tuples Cs r) as [|l L IHL]; [reflexivity|].
    cbn [flat_map]. rewrite sum_app, <- IHL, sum_map. reflexivity.
Qed.
Lemma rs_sum ds : forall B, real_sum ds B = sum (fun es => sum (fun f => ind (exec (table U f) (B (ids_list U f ds es)))) Fs) (tuples Es (length ds)).
Proof.
  induction ds as [|d ds IH]; intros B; cbn [real_sum tuples length].
  - cbn [sum fold_right]. rewrite N.add_0_r. reflexivity.
  - rewrite (sum_ext _ (fun e => sum (fun es => sum (fun f => ind (exec (table U f) (B (ids_list U f (d :: ds) (e :: es))))) Fs) (tuples Es (length ds))) Es).
    + rewrite sum_swap. clear IH. induction (tuples Es (length ds)) as [|l L IHL]; [reflexivity|].
      cbn [flat_map]. rewrite sum_app, <- IHL, sum_map. reflexivity.
    + intros e _. rewrite IH. apply sum_ext. intros es _. apply sum_ext. intros f _. rewrite exec_andthen. reflexivity.
Qed.

(** One value *)
Lemma one_value d q (A : bytes32 -> prog bool) : good_secret n Es d -> (forall c, modest n q (A c)) ->
  near (sum (fun e => sum (fun f => ind (exec (table U f) (A (table U f (pre_of U d e f))))) Fs) Es * K)
       (sum (fun f => sum (fun c => ind (exec (table U f) (A c))) Cs) Fs * S) (N.of_nat q * K * F).
Proof.
  intros (T & L & J) M.
  assert (X : near (sum (fun e => sum (fun f => yes U A (table U f (pre_of U d e f)) f) Fs * K)%N Es)
                   (sum (fun e => sum (fun f => sum (fun c => yes U A c f) Cs) Fs) Es)
                   (sum (fun e => sum (fun f => sum (fun c => bad U A (pre_of U d e f) c f) Cs) Fs) Es)).
  { apply near_sum. intros e I. apply (one_entropy U Fs Cs A (pre_of U d e) (proj1 UU) LF NC IC).
    - intros f _. apply (proj2 UU). unfold pre_of. rewrite !app_length, !b32_length. specialize (L e I). lia.
    - intros f c _. unfold pre_of at 1. rewrite put_other; [reflexivity|].
      intros E. apply (f_equal (@length byte)) in E. unfold pre_of in E. rewrite !app_length, !b32_length in E. lia. }
  rewrite sum_mul, sum_same in X.
  assert (Y : (sum (fun e => sum (fun f => sum (fun c => bad U A (pre_of U d e f) c f) Cs) Fs) Es <= N.of_nat q * K * F)%N).
  { rewrite sum_swap. rewrite (sum_ext _ (fun f => sum (fun c => sum (fun e => bad U A (pre_of U d e f) c f) Es) Cs) Fs) by (intros; apply sum_swap).
    transitivity (sum (fun f : list bytes32 => sum (fun c : bytes32 => N.of_nat q) Cs) Fs).
    - apply sum_le. intros f _. apply sum_le. intros c _. apply (bad_all U A n q Es (pre_of U d)); [apply M|exact NE|].
      intros e e' I I' E. apply J; [exact I|exact I'|]. unfold pre_of in E. apply app_inv_head in E. apply app_inv_head in E. exact E.
    - rewrite sum_same. setoid_rewrite sum_same. fold K F. lia. }
  fold S in X. unfold near, yes in *. rewrite (N.mul_comm _ S). lia.
Qed.

Lemma many_values ds : Forall (good_secret n Es) ds -> forall q B, (forall cs, modest n q (B cs)) ->
  near (real_sum ds B * K ^ N.of_nat (length ds)) (noise_sum (length ds) B * S ^ N.of_nat (length ds))
       (N.of_nat (length ds) * (N.of_nat q + 2 * N.pred (N.of_nat (length ds))) * S ^ N.pred (N.of_nat (length ds)) * K ^ N.of_nat (length ds) * F).
Proof.
  induction 1 as [|d ds G Gs IH]; intros q B M; [cbn; unfold near; lia|].
  cbn [length]. rewrite Nat2N.inj_succ, N.pred_succ, !N.pow_succ_r'. set (r := N.of_nat (length ds)) in *.
  cbn [real_sum noise_sum].
  set (Be := fun e ids => andthen (p_val d e) (fun id => B (id :: ids))).
  match goal with |- near (?x * _) _ _ => change x with (sum (fun e => real_sum ds (Be e)) Es) end.
  assert (ONE : near (sum (fun e => real_sum ds (Be e)) Es * K ^ r) (sum (fun e => noise_sum (length ds) (Be e)) Es * S ^ r)
                     (S * (r * (N.of_nat q + 2 * r) * S ^ N.pred r * K ^ r * F))).
  { rewrite <- !sum_mul. match goal with |- near _ _ (S * ?z) => replace (S * z)%N with (sum (fun _ => z) Es) by apply sum_same end. apply near_sum. intros e I.
    replace (r * (N.of_nat q + 2 * r))%N with (r * (N.of_nat (2 + q) + 2 * N.pred r))%N.
    - apply IH. intros cs. apply (modest_andthen n _ _ 2 q); [apply (p_val_modest n Es); assumption|intros id; apply M].
    - destruct (N.eq_dec r 0) as [->|N0]; [reflexivity|]. f_equal. rewrite Nat2N.inj_add. lia. }
  assert (TWO : near (sum (fun e => noise_sum (length ds) (Be e)) Es * K)
                     (sum (fun c => noise_sum (length ds) (fun ids => B (c :: ids))) Cs * S)
                     (K ^ r * (N.of_nat q * K * F))).
  { rewrite (sum_ext _ (fun e => sum (fun cs => sum (fun f => ind (exec (table U f) (B (table U f (pre_of U d e f) :: cs)))) Fs) (tuples Cs (length ds))) Es)
      by (intros e _; rewrite ns_sum; apply sum_ext; intros cs _; apply sum_ext; intros f _; unfold Be; rewrite exec_andthen; reflexivity).
    rewrite (sum_ext _ (fun c => sum (fun cs => sum (fun f => ind (exec (table U f) (B (c :: cs)))) Fs) (tuples Cs (length ds))) Cs)
      by (intros c _; apply ns_sum).
    rewrite (sum_swap _ Es), (sum_swap _ Cs), <- !sum_mul. unfold r at 1. replace (K ^ N.of_nat (length ds))%N with (N.of_nat (length (tuples Cs (length ds)))) by apply tuples_length.
    match goal with |- near _ _ (?a * ?z) => replace (a * z)%N with (sum (fun _ => z) (tuples Cs (length ds))) by apply sum_same end. apply near_sum. intros cs _. rewrite (sum_swap _ Cs Fs).
    apply (one_value d q (fun c => B (c :: cs))); [exact G|]. intros c. apply M. }
  apply (near_mul _ _ _ K) in ONE. apply (near_mul _ _ _ (S ^ r)) in TWO.
  set (a := sum (fun e => real_sum ds (Be e)) Es) in *. set (b := sum (fun e => noise_sum (length ds) (Be e)) Es) in *.
  set (c := sum (fun c0 => noise_sum (length ds) (fun ids => B (c0 :: ids))) Cs) in *.
  replace (b * S ^ r * K)%N with (b * K * S ^ r)%N in ONE by lia.
  pose proof (near_trans _ _ _ _ _ ONE TWO) as X.
  replace (a * (K * K ^ r))%N with (a * K ^ r * K)%N by lia. replace (c * (S * S ^ r))%N with (c * S * S ^ r)%N by lia.
  assert (LE : (S * (r * (N.of_nat q + 2 * r) * S ^ N.pred r * K ^ r * F) * K + K ^ r * (N.of_nat q * K * F) * S ^ r <=
               N.succ r * (N.of_nat q + 2 * r) * S ^ r * (K * K ^ r) * F)%N).
  { replace (S * (r * (N.of_nat q + 2 * r) * S ^ N.pred r * K ^ r * F) * K)%N with (r * (N.of_nat q + 2 * r) * S ^ r * (K * K ^ r) * F)%N.
    - replace (K ^ r * (N.of_nat q * K * F) * S ^ r)%N with (N.of_nat q * S ^ r * (K * K ^ r) * F)%N by lia.
      rewrite <- !N.mul_assoc. set (z := (S ^ r * (K * (K ^ r * F)))%N). generalize z. intros y. nia.
    - destruct (N.eq_dec r 0) as [->|N0]; [lia|]. replace (S ^ r)%N with (S * S ^ N.pred r)%N; [lia|].
      rewrite <- N.pow_succ_r', N.succ_pred by exact N0. reflexivity. }
  exact (near_le _ _ _ _ X LE).
Qed.
End Games.

(** ** From values to tags and bytes *)
Definition described_by (n : nat) (md : mode) (S : N) (v : secret_value) (d : tag_bytes) : Prop := salted_by n md S v (fst d) (snd d).
Lemma described_all n md S vs : Forall (salted n md S) vs -> exists ds, Forall2 (described_by n md S) vs ds.
Proof.
  induction 1 as [|v vs (tag & bytes & D) Fs (ds & IH)]; [exists []; constructor|]. exists ((tag, bytes) :: ds). constructor; [exact D|exact IH].
Qed.
Lemma described_length n md S vs ds : Forall2 (described_by n md S) vs ds -> length vs = length ds.
Proof. induction 1; cbn; congruence. Qed.
Lemma described_good n md S Es v d : (forall e, In e Es <-> (e < S)%N) -> described_by n md S v d -> good_secret n Es d.
Proof.
  intros IE (T & (fields & _ & D) & J). split; [exact T|split].
  - intros e I. apply IE in I. apply (D e I).
  - intros e e' I I'. apply J; apply IE; assumption.
Qed.
Lemma described_id n md S U f v d e : described_by n md S v d -> (e < S)%N ->
  @commit_id (table U f) _ md (sv_commit v (table U f)) (sv_value v e) = Ret (table U f (pre_of U d e f)).
Proof.
  intros (T & (fields & FF & D) & J) L. destruct (D e L) as (_ & B & R). destruct (B (table U f)) as (bs & Fb & Cb). destruct (R (table U f)) as [id E].
  rewrite E. f_equal. unfold pre_of. rewrite <- Cb. apply (id_runs (table U f) md (fst d) fields (sv_commit v (table U f)) _ id bs (FF (table U f)) E Fb).
Qed.
Lemma described_ids n md S U f vs ds : Forall2 (described_by n md S) vs ds -> forall es ids, Forall (fun e => (e < S)%N) es ->
  (ids_with (table U f) md vs es ids <-> length es = length ds /\ ids = ids_list U f ds es).
Proof.
  induction 1 as [|v d vs ds D Ds IH]; intros es ids B; split.
  - inversion 1; subst. split; reflexivity.
  - destruct es; [|intros [X _]; discriminate]. intros [_ ->]. constructor.
  - inversion 1; subst. inversion B; subst. match goal with X : ids_with _ _ _ _ _ |- _ => apply IH in X as [L ->]; [|assumption] end.
    match goal with X : commit_id _ _ _ = Ret _ |- _ => rewrite (described_id n md S U f v d _ D) in X by assumption; injection X as <- end.
    cbn [length ids_list]. split; [congruence|reflexivity].
  - intros [L ->]. destruct es as [|e es]; [discriminate|]. inversion B; subst. cbn [ids_list]. constructor.
    + apply (described_id n md S U f v d e D). assumption.
    + apply IH; [assumption|]. split; [cbn in L; lia|reflexivity].
Qed.
Lemma tuples_among {A} (S : list A) n : forall l, In l (tuples S n) <-> length l = n /\ Forall (fun x => In x S) l.
Proof.
  induction n as [|n IH]; intros l; cbn [tuples].
  - split; [intros [<-|[]]; split; [reflexivity|constructor]|]. intros [L _]. destruct l; [left; reflexivity|discriminate].
  - rewrite in_flat_map. split.
    + intros (m & Hm & Hl). apply in_map_iff in Hl as (x & <- & Ix). apply IH in Hm as [L Fm]. cbn. split; [congruence|constructor; assumption].
    + intros [L Fl]. destruct Fl as [|x l Ix Fl]; [discriminate|]. exists l. split; [apply IH; split; [cbn in L; lia|exact Fl]|].
      apply in_map_iff. exists x. split; [reflexivity|exact Ix].
Qed.
Section Counts.
Context (U : list (list byte)) (Fs : list (list bytes32)) (LF : lists_all Fs (fun f => length f = length U)).
Lemma guesses_ids_iff n md S Es vs ds A : (forall e, In e Es <-> (e < S)%N) -> Forall2 (described_by n md S) vs ds ->
  forall ef, guesses_ids U md S vs A ef <->
    In ef (list_prod (tuples Es (length ds)) Fs) /\ exec (table U (snd ef)) (A (ids_list U (snd ef) ds (fst ef))) = true.
Proof.
  intros IE D [es f]. cbn [fst snd]. unfold guesses_ids. rewrite in_prod_iff, tuples_among, (proj2 LF f).
  assert (FE : Forall (fun e => (e < S)%N) es <-> Forall (fun e => In e Es) es) by (split; apply Forall_impl; intros e; apply IE).
  split.
  - intros (L & B & ids & I & X). apply (described_ids n md S U f vs ds D) in I as [Le ->]; [|exact B]. tauto.
  - intros (((Le & B) & L) & X). apply FE in B. split; [exact L|split; [exact B|]]. eexists. split; [|exact X].
    apply (described_ids n md S U f vs ds D es _ B). split; [exact Le|reflexivity].
Qed.
Lemma guesses_noise_iff r Cs A : (forall c, In c Cs) ->
  forall cf, guesses_noise U r A cf <-> In cf (list_prod (tuples Cs r) Fs) /\ exec (table U (snd cf)) (A (fst cf)) = true.
Proof.
  intros IC [cs f]. cbn [fst snd]. unfold guesses_noise. rewrite in_prod_iff, (tuples_in Cs r IC), (proj2 LF f). tauto.
Qed.
Lemma ids_count n md S Es vs ds A k : NoDup Es -> (forall e, In e Es <-> (e < S)%N) -> Forall2 (described_by n md S) vs ds ->
  counts (guesses_ids U md S vs A) k -> k = real_sum U Fs Es ds A.
Proof.
  intros NE IE D C. rewrite rs_sum.
  rewrite (counts_ind _ _ (list_prod (tuples Es (length ds)) Fs) k (NoDup_prod _ _ (tuples_NoDup Es _ NE) (proj1 LF)) (guesses_ids_iff n md S Es vs ds A IE D) C).
  apply sum_prod.
Qed.
Lemma noise_count r Cs A k : NoDup Cs -> (forall c, In c Cs) -> counts (guesses_noise U r A) k -> k = noise_sum U Fs Cs r A.
Proof.
  intros NC IC C. rewrite ns_sum.
  rewrite (counts_ind _ _ (list_prod (tuples Cs r) Fs) k (NoDup_prod _ _ (tuples_NoDup Cs _ NC) (proj1 LF)) (guesses_noise_iff r Cs A IC) C).
  apply sum_prod.
Qed.
End Counts.

Lemma c113_blind : forall n U q md S (A : list bytes32 -> prog bool) vs r k k0 (strings : universe n U) (few : forall cs, modest n q (A cs))
  (hidden : Forall (salted n md S) vs) (many : N.of_nat (length vs) = r)
  (real : counts (guesses_ids U md S vs A) k) (ideal : counts (guesses_noise U (length vs) A) k0),
  let error := (r * (N.of_nat q + 2 * (r - 1)) * S ^ (r - 1) * 2 ^ (256 * r) * 2 ^ (256 * N.of_nat (length U)))%N in
  (k * 2 ^ (256 * r) <= k0 * S ^ r + error /\ k0 * S ^ r <= k * 2 ^ (256 * r) + error)%N.
Proof.
  intros n U q md S A vs r k k0 UU F V <- R I0. cbv zeta.
  destruct (below S) as (Es & NE & IE & LE). destruct (c86_all (length U)) as (Fs & LF & NF). destruct all_ids as (Cs & NC & IC & LC).
  destruct (described_all n md S vs V) as [ds D]. assert (LV : length vs = length ds) by apply (described_length n md S), D.
  rewrite (ids_count U Fs LF n md S Es vs ds A k NE IE D R). rewrite LV in I0. rewrite (noise_count U Fs LF (length ds) Cs A k0 NC IC I0).
  rewrite LV, N.sub_1_r, <- NF, <- LE, (N.pow_mul_r 2 256), <- LC.
  apply (many_values n U UU Fs Cs Es LF NC IC NE ds); [|exact F].
  clear - D IE. induction D as [|v d vs ds Dv Ds IH]; constructor; [apply (described_good n md S Es v d IE Dv)|exact IH].
Qed.

Lemma c113_hiding : forall n U q md S (A : list bytes32 -> prog bool) vs ws r k1 k2 (strings : universe n U) (few : forall cs, modest n q (A cs))
  (hidden1 : Forall (salted n md S) vs) (hidden2 : Forall (salted n md S) ws)
  (many1 : N.of_nat (length vs) = r) (many2 : N.of_nat (length ws) = r)
  (yes1 : counts (guesses_ids U md S vs A) k1) (yes2 : counts (guesses_ids U md S ws A) k2),
  (k1 <= k2 + 2 * r * (N.of_nat q + 2 * (r - 1)) * S ^ (r - 1) * 2 ^ (256 * N.of_nat (length U)))%N.
Proof.
  intros n U q md S A vs ws r k1 k2 UU F V W E1 E2 R1 R2.
  destruct (c86_all (length U)) as (Fs & LF & NF). destruct all_ids as (Cs & NC & IC & LC).
  assert (C0 : counts (guesses_noise U (length vs) A) (sum (fun x => ind (exec (table U (snd x)) (A (fst x)))) (list_prod (tuples Cs (length vs)) Fs))).
  { apply counts_exist; [apply NoDup_prod; [apply tuples_NoDup, NC|apply LF]|]. apply (guesses_noise_iff U Fs LF (length vs) Cs A IC). }
  set (k0 := sum _ _) in C0. clearbody k0.
  pose proof (c113_blind n U q md S A vs r k1 k0 UU F V E1 R1 C0) as X. assert (EL : length vs = length ws) by lia. rewrite EL in C0.
  pose proof (c113_blind n U q md S A ws r k2 k0 UU F W E2 R2 C0) as Y. cbv zeta in X, Y. destruct X as [X _], Y as [_ Y].
  set (z := (r * (N.of_nat q + 2 * (r - 1)) * S ^ (r - 1))%N) in *. set (p := (2 ^ (256 * r))%N) in *. set (f := (2 ^ (256 * N.of_nat (length U)))%N) in *.
  assert (P : p <> 0%N) by (apply N.pow_nonzero; discriminate).
  replace (2 * r * (N.of_nat q + 2 * (r - 1)) * S ^ (r - 1) * f)%N with (2 * (z * f))%N by (unfold z; lia).
  apply (N.mul_le_mono_pos_r _ _ p); [lia|]. lia.
Qed.

Lemma c113_numbers : forall n U q md (A : list bytes32 -> prog bool) vs ws k1 k2 all (strings : universe n U) (few : forall cs, modest n q (A cs))
  (work : (N.of_nat q <= 2 ^ 100)%N) (hidden1 : Forall (salted n md (2 ^ 256)) vs) (hidden2 : Forall (salted n md (2 ^ 256)) ws)
  (same : length vs = length ws) (many : (N.of_nat (length vs) <= 2 ^ 20)%N)
  (yes1 : counts (guesses_ids U md (2 ^ 256) vs A) k1) (yes2 : counts (guesses_ids U md (2 ^ 256) ws A) k2)
  (total : counts (guesses_ids U md (2 ^ 256) vs (fun _ => Done true)) all),
  (k1 * 2 ^ 134 <= k2 * 2 ^ 134 + all)%N.
Proof.
  intros n U q md A vs ws k1 k2 all UU F Q V W E M R1 R2 T.
  pose proof (c113_hiding n U q md (2 ^ 256) A vs ws (N.of_nat (length vs)) k1 k2 UU F V W eq_refl ltac:(congruence) R1 R2) as X.
  destruct (below (2 ^ 256)) as (Es & NE & IE & LE). destruct (c86_all (length U)) as (Fs & LF & NF).
  destruct (described_all n md (2 ^ 256) vs V) as [ds D].
  rewrite (ids_count U Fs LF n md (2 ^ 256) Es vs ds _ all NE IE D T), rs_sum. cbn [exec ind]. rewrite sum_same, sum_same, tuples_length, LE, NF.
  rewrite <- (described_length _ _ _ _ _ D). set (r := N.of_nat (length vs)) in *. set (f := (2 ^ (256 * N.of_nat (length U)))%N) in *.
  destruct (N.eq_dec r 0) as [Z|Z]; [rewrite Z in *; lia|].
  replace ((2 ^ 256) ^ r)%N with (2 ^ 256 * (2 ^ 256) ^ (r - 1))%N by (rewrite <- N.pow_succ_r'; f_equal; lia).
  set (y := ((2 ^ 256) ^ (r - 1))%N) in *. assert (B : (2 * r * (N.of_nat q + 2 * (r - 1)) * 2 ^ 134 <= 2 ^ 256)%N).
  { assert (B1 : (N.of_nat q + 2 * (r - 1) <= 2 ^ 101)%N) by lia.
    transitivity (2 * 2 ^ 20 * 2 ^ 101 * 2 ^ 134)%N; [|vm_compute; discriminate].
    apply N.mul_le_mono_r, N.mul_le_mono; [lia|exact B1]. }
  clearbody y f. apply (N.mul_le_mono_r _ _ (2 ^ 134)) in X. rewrite N.mul_add_distr_r in X.
  apply (N.mul_le_mono_r _ _ (y * f)) in B. generalize dependent (2 ^ 134)%N. generalize dependent (2 ^ 256)%N. intros. lia.
Qed.

Lemma c113_meaning : forall n U md S (A : list bytes32 -> prog bool) vs (strings : universe n U) (hidden : Forall (salted n md S) vs),
  (exists k, counts (guesses_ids U md S vs A) k) /\ (exists k0, counts (guesses_noise U (length vs) A) k0) /\
  counts (guesses_ids U md S vs (fun _ => Done true)) (S ^ N.of_nat (length vs) * 2 ^ (256 * N.of_nat (length U))) /\
  counts (guesses_noise U (length vs) (fun _ => Done true)) (2 ^ (256 * N.of_nat (length vs)) * 2 ^ (256 * N.of_nat (length U))).
Proof.
  intros n U md S A vs UU V. destruct (below S) as (Es & NE & IE & LE). destruct (c86_all (length U)) as (Fs & LF & NF). destruct all_ids as (Cs & NC & IC & LC).
  destruct (described_all n md S vs V) as [ds D].
  assert (CI : forall B, counts (guesses_ids U md S vs B) (real_sum U Fs Es ds B)).
  { intros B. rewrite rs_sum. rewrite <- (sum_prod (fun x => ind (exec (table U (snd x)) (B (ids_list U (snd x) ds (fst x)))))).
    apply counts_exist; [apply NoDup_prod; [apply tuples_NoDup, NE|apply LF]|]. apply (guesses_ids_iff U Fs LF n md S Es vs ds B IE D). }
  assert (CN : forall B, counts (guesses_noise U (length vs) B) (noise_sum U Fs Cs (length vs) B)).
  { intros B. rewrite ns_sum. rewrite <- (sum_prod (fun x => ind (exec (table U (snd x)) (B (fst x))))).
    apply counts_exist; [apply NoDup_prod; [apply tuples_NoDup, NC|apply LF]|]. apply (guesses_noise_iff U Fs LF (length vs) Cs B IC). }
  split; [eexists; apply CI|split; [eexists; apply CN|split]].
  - specialize (CI (fun _ => Done true)). rewrite rs_sum in CI. cbn [exec ind] in CI.
    rewrite sum_same, sum_same, tuples_length, LE, NF, <- (described_length _ _ _ _ _ D), N.mul_1_r in CI. exact CI.
  - specialize (CN (fun _ => Done true)). rewrite ns_sum in CN. cbn [exec ind] in CN.
    rewrite sum_same, sum_same, tuples_length, LC, NF, N.mul_1_r, <- N.pow_mul_r in CN. exact CN.
Qed.

(** ** Trying all secrets *)
Fixpoint p_tries (bytes : N -> list byte) (th c : bytes32) (es : list N) : prog bool :=
  match es with
  | [] => Done false
  | e :: r => Ask (b32 th ++ b32 th ++ bytes e) (fun a => if b32_eqb a c then Done true else p_tries bytes th c r)
  end.
Definition p_search (tag : list byte) (bytes : N -> list byte) (es : list N) (ids : list bytes32) : prog bool :=
  match ids with [c] => Ask tag (fun th => p_tries bytes th c es) | _ => Done false end.
Lemma p_tries_modest n bytes th c es : (forall e, In e es -> length (bytes e) + 64 <= n) -> modest n (length es) (p_tries bytes th c es).
Proof.
  induction es as [|e es IH]; intros B; [exact Logic.I|]. cbn [length p_tries modest]. rewrite !app_length, !b32_length.
  split; [specialize (B e (or_introl eq_refl)); lia|]. intros a. destruct (b32_eqb a c); [exact Logic.I|]. apply IH. intros x I. apply B. right. exact I.
Qed.
Lemma p_tries_exec U f bytes c tag es : exec (table U f) (p_tries bytes (table U f tag) c es) = true <->
  In c (map (fun e => table U f (pre_of U (tag, bytes) e f)) es).
Proof.
  induction es as [|e es IH]; [cbn; split; [discriminate|intros []]|]. cbn [p_tries exec map In].
  change (table U f (b32 (table U f tag) ++ b32 (table U f tag) ++ bytes e)) with (table U f (pre_of U (tag, bytes) e f)).
  destruct (b32_eqb (table U f (pre_of U (tag, bytes) e f)) c) eqn:E.
  - apply b32_eqb_eq in E. cbn [exec]. tauto.
  - rewrite IH. split; [tauto|]. intros [X|X]; [|exact X]. exfalso. apply b32_eqb_eq in X. congruence.
Qed.
Lemma c113_search : forall n U md S v (strings : universe n U) (hidden : salted n md S v) (secrets : (0 < S)%N),
  exists A q, (forall cs, modest n q (A cs)) /\ N.of_nat q = (S + 1)%N /\
    forall k k0, counts (guesses_ids U md S [v] A) k -> counts (guesses_noise U 1 A) k0 ->
      (k = S * 2 ^ (256 * N.of_nat (length U)) /\ k0 <= S * 2 ^ (256 * N.of_nat (length U)))%N.
Proof.
  intros n U md S v UU (tag & bytes & D) P. destruct (below S) as (Es & NE & IE & LE).
  destruct (c86_all (length U)) as (Fs & LF & NF). destruct all_ids as (Cs & NC & IC & LC).
  assert (DS : Forall2 (described_by n md S) [v] [(tag, bytes)]) by (constructor; [exact D|constructor]).
  destruct (described_good n md S Es v (tag, bytes) IE D) as (T & L & J). cbn [fst snd] in T, L, J.
  exists (p_search tag bytes Es), (Datatypes.S (length Es)). split; [|split; [rewrite Nat2N.inj_succ; lia|]].
  - intros cs. destruct cs as [|c [|c' cs]]; [exact Logic.I| |exact Logic.I]. cbn [p_search modest]. split.
    + specialize (L 0%N (proj2 (IE 0%N) P)). lia.
    + intros th. apply p_tries_modest, L.
  - intros k k0 K K0. split.
    + rewrite (ids_count U Fs LF n md S Es [v] [(tag, bytes)] _ k NE IE DS K), rs_sum.
      rewrite (sum_ext _ (fun _ => sum (fun _ => 1%N) Fs)).
      * rewrite sum_same, sum_same, tuples_length, LE, NF. cbn [length]. rewrite N.pow_1_r, N.mul_1_r. reflexivity.
      * intros es I. apply tuples_among in I as [Le Ie]. destruct es as [|e [|e' es]]; try discriminate. inversion Ie; subst.
        apply sum_ext. intros f _. cbn [ids_list p_search exec]. rewrite (proj2 (p_tries_exec U f bytes _ tag Es)); [reflexivity|].
        apply in_map_iff. exists e. split; [reflexivity|assumption].
    + rewrite (noise_count U Fs LF 1 Cs _ k0 NC IC K0). cbn [noise_sum]. rewrite sum_swap, <- NF, <- LE, N.mul_comm, <- sum_same. apply sum_le.
      intros f _. cbn [p_search exec]. rewrite sum_ind.
      assert (W : length (filter (fun c => exec (table U f) (p_tries bytes (table U f tag) c Es)) Cs) <= length Es).
      { rewrite <- (map_length (fun e => table U f (pre_of U (tag, bytes) e f)) Es). apply NoDup_incl_length; [apply NoDup_filter, NC|].
        intros c I. apply filter_In in I as [_ I]. apply p_tries_exec in I. exact I. }
      revert W. generalize (length Es). intros m W. lia.
Qed.

(** ** Values with a field holding the secret *)
Lemma plain_bytes fs : Forall (fun f => forall t ls, f <> FMerkle t ls) fs -> exists bs, forall H, Forall2 (@feeds H) fs bs.
Proof.
  induction 1 as [|f fs P Fs [bs IH]]; [exists []; constructor|].
  assert (E : exists b, forall H, @feeds H f b).
  { destruct f as [A T v|A T [v|]|t id|t ls|C t CT c|A T mi ma l|A T mi ma l|K V TK TV mi ma l];
      try (eexists; intros H; reflexivity); [exfalso; apply (P t ls); reflexivity| | |];
      (eexists; intros H; exists (prefix_len ma); split; [apply prefix_len_size|reflexivity]). }
  destruct E as [b E]. exists (b :: bs). intros H. constructor; [apply E|apply IH].
Qed.
Lemma c113_salt : forall n md S (v : secret_value) tag (fields : sv_type v -> list field) Salt (T : typed Salt) val (salt : N -> Salt) pre post
  (short : length tag < 64) (encoder : forall H, feeds_fields H tag fields (sv_commit v H))
  (field : forall e, (e < S)%N -> fields (sv_value v e) = pre ++ FSerialized T (salt e) :: post)
  (plain : forall f t ls, In f (pre ++ post) -> f <> FMerkle t ls)
  (canonical : lawful (ty_codec T) val) (secret : forall e, (e < S)%N -> val (salt e))
  (injective : forall e e', (e < S)%N -> (e' < S)%N -> salt e = salt e' -> e = e')
  (size : forall H e bs, (e < S)%N -> Forall2 (@feeds H) (fields (sv_value v e)) bs -> length (concat bs) + 64 <= n)
  (defined : forall H e, (e < S)%N -> exists id, @commit_id H _ md (sv_commit v H) (sv_value v e) = Ret id),
  salted n md S v.
Proof.
  intros n md S v tag fields Salt T val salt pre post SH EN FI PL CA SE IN SI DE.
  destruct (plain_bytes pre) as [b1 B1]; [apply Forall_forall; intros f I t ls; apply PL, in_or_app; left; exact I|].
  destruct (plain_bytes post) as [b2 B2]; [apply Forall_forall; intros f I t ls; apply PL, in_or_app; right; exact I|].
  assert (B : forall H e, (e < S)%N -> Forall2 (@feeds H) (fields (sv_value v e)) (b1 ++ enc (ty_codec T) (salt e) :: b2)).
  { intros H e L. rewrite (FI e L). apply Forall2_app; [apply B1|]. constructor; [reflexivity|apply B2]. }
  exists tag, (fun e => concat (b1 ++ enc (ty_codec T) (salt e) :: b2)). split; [exact SH|split].
  - exists fields. split; [exact EN|]. intros e L. split; [apply (SI (fun _ => b32_fill x00) e _ L), B, L|]. split.
    + intros H. eexists. split; [apply B, L|reflexivity].
    + intros H. apply DE, L.
  - intros e e' L L' E. rewrite !concat_app in E. apply app_inv_head in E. cbn [concat] in E.
    apply IN; [exact L|exact L'|]. apply (lawful_inj (ty_codec T) val _ _ _ _ CA (SE e L) (SE e' L') E).
Qed.
