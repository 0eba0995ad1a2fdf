(** Lemmas for C94: changing a table at several strings, and what an adversary notices of it. *)
From Verif Require Import Base BaseFacts SpecHash SpecCount CountProofs SpecGame GameProofs SpecHideGame GameHideProofs.
From Coq Require Import Permutation.
Local Open Scope nat_scope.

Notation str_dec := (list_eq_dec Byte.byte_eq_dec).

(** ** Changing several answers *)
Fixpoint puts (U : list (list byte)) (f : list bytes32) (xs : list (list byte)) (cs : list bytes32) : list bytes32 :=
  match xs, cs with
  | x :: xs', c :: cs' => put U (puts U f xs' cs') x c
  | _, _ => f
  end.
Lemma puts_length U f xs : forall cs, length (puts U f xs cs) = length f.
Proof. induction xs as [|x xs IH]; intros [|c cs]; cbn [puts]; try reflexivity. rewrite put_length. apply IH. Qed.
Lemma puts_other U f s xs : forall cs, ~ In s xs -> table U (puts U f xs cs) s = table U f s.
Proof.
  induction xs as [|x xs IH]; intros [|c cs] N; cbn [puts]; try reflexivity. cbn in N. rewrite put_other by tauto. apply IH. tauto.
Qed.
Lemma puts_same U f xs : forall cs, length f = length U -> incl xs U -> NoDup xs -> length cs = length xs ->
  map (table U (puts U f xs cs)) xs = cs.
Proof.
  induction xs as [|x xs IH]; intros [|c cs] L I ND LC; try discriminate; [reflexivity|]. cbn [puts map].
  inversion ND as [|? ? Nx ND']. subst. f_equal.
  - apply put_same; [rewrite puts_length; exact L|apply I; left; reflexivity].
  - transitivity (map (table U (puts U f xs cs)) xs).
    + apply map_ext_in. intros s Is. apply put_other. intros <-. contradiction.
    + apply IH; [exact L|intros s Is; apply I; right; exact Is|exact ND'|cbn in LC; lia].
Qed.
Lemma puts_back U f xs cs : NoDup U -> length f = length U -> incl xs U -> NoDup xs -> length cs = length xs ->
  puts U (puts U f xs cs) xs (map (table U f) xs) = f.
Proof.
  intros NU L I ND LC. apply (table_ext U); [exact NU|rewrite !puts_length; exact L|exact L|]. intros u Iu.
  destruct (in_dec str_dec u xs) as [J|J].
  - assert (E : map (table U (puts U (puts U f xs cs) xs (map (table U f) xs))) xs = map (table U f) xs)
      by (apply puts_same; [rewrite puts_length; exact L|exact I|exact ND|apply map_length]).
    revert J. apply (proj1 map_ext_in_iff E).
  - rewrite !puts_other by exact J. reflexivity.
Qed.

(** A program which asks none of [xs] does not notice. *)
Lemma exec_others {A} (H H' : Hasher) xs (p : prog A) : (forall s, ~ In s xs -> H' s = H s) ->
  (forall x, In x xs -> ~ In x (asked H p)) -> exec H' p = exec H p.
Proof.
  intros E. induction p as [a|s k IH]; [reflexivity|]. cbn [asked exec In]. intros N. rewrite (E s).
  - apply IH. intros x Ix J. apply (N x Ix). tauto.
  - intros Is. apply (N s Is). left. reflexivity.
Qed.

(** Part of a list *)
Lemma sum_part {X} (dec : forall x y : X, {x = y} + {x <> y}) (g : X -> N) M L : NoDup M -> NoDup L -> incl M L -> (forall x, g x <= 1)%N ->
  (sum g M <= sum g L /\ sum g L + N.of_nat (length M) <= sum g M + N.of_nat (length L))%N.
Proof.
  intros NM NL I B. set (R := filter (fun x => if in_dec dec x M then false else true) L).
  assert (P : Permutation L (M ++ R)).
  { apply NoDup_Permutation; [exact NL| |].
    - apply NoDup_app_intro; [exact NM|apply NoDup_filter, NL|]. intros x Ix J. apply filter_In in J as [_ J]. destruct (in_dec dec x M); [discriminate|contradiction].
    - intros x. rewrite in_app_iff. unfold R. rewrite filter_In. destruct (in_dec dec x M) as [J|J]; [split; [tauto|intros _; apply I, J]|].
      split; [tauto|]. intros [K|[K _]]; [contradiction|exact K]. }
  rewrite (sum_perm g _ _ P), sum_app, (Permutation_length P), app_length, Nat2N.inj_add.
  assert (S : (sum g R <= N.of_nat (length R))%N).
  { rewrite <- (N.mul_1_r (N.of_nat (length R))), <- sum_same. apply sum_le. intros; apply B. }
  set (a := sum g M). set (b := sum g R) in *. clearbody a b. lia.
Qed.

(** ** One entropy: the strings [X f], the view [v f cs] given the answers [cs] to them, the tables [good] *)
Section View.
Context {T : Type}.
Variables (U : list (list byte)) (m : nat) (A : T -> prog bool) (Fs : list (list bytes32)) (Cs : list bytes32).
Variables (v : list bytes32 -> list bytes32 -> T) (good : list bytes32 -> bool).
Hypothesis NU : NoDup U.
Hypothesis LF : lists_all Fs (fun f => length f = length U).
Hypothesis NC : NoDup Cs.
Hypothesis IC : forall c, In c Cs.

Definition answer (c : list bytes32) (f g : list bytes32) : N := ind (exec (table U g) (A (v f c))).
Definition touches (xs : list (list byte)) (c f : list bytes32) : bool :=
  existsb (fun x => if in_dec str_dec x (asked (table U f) (A (v f c))) then true else false) xs.
Notation Ct := (tuples Cs m).

Lemma answers_differ xs c f : (answer c f (puts U f xs c) <= answer c f f + ind (touches xs c f) /\
  answer c f f <= answer c f (puts U f xs c) + ind (touches xs c f))%N.
Proof.
  unfold answer. destruct (touches xs c f) eqn:E.
  - cbn [ind]. destruct (exec _ _), (exec _ _); cbn; lia.
  - rewrite (exec_others (table U f) (table U (puts U f xs c)) xs); [cbn [ind]; lia| |].
    + intros s N. apply puts_other, N.
    + intros x I J. assert (touches xs c f = true); [|congruence]. apply existsb_exists. exists x. split; [exact I|].
      destruct (in_dec _ _ _); [reflexivity|contradiction].
Qed.

Section Strings.
Variable X : list bytes32 -> list (list byte).
Hypothesis IX : forall f, length f = length U -> incl (X f) U /\ length (X f) = m.
Hypothesis good_distinct : forall f, length f = length U -> good f = true -> NoDup (X f).
Hypothesis good_stays : forall f c, length f = length U -> good f = true -> X (puts U f (X f) c) = X f.
Hypothesis good_view : forall f c d, length f = length U -> good f = true -> v (puts U f (X f) c) d = v f d.

Definition swap (fc : list bytes32 * list bytes32) : list bytes32 * list bytes32 :=
  (puts U (fst fc) (X (fst fc)) (snd fc), map (table U (fst fc)) (X (fst fc))).
Notation real f := (answer (map (table U f) (X f)) f f).
Notation Gd := (list_prod (filter good Fs) Ct).
Notation All := (list_prod Fs Ct).

Lemma in_Gd f c : In (f, c) Gd <-> (length f = length U /\ good f = true) /\ length c = m.
Proof. rewrite in_prod_iff, filter_In, (proj2 LF f), (tuples_in Cs m IC c). tauto. Qed.
Lemma in_All f c : In (f, c) All <-> length f = length U /\ length c = m.
Proof. rewrite in_prod_iff, (proj2 LF f), (tuples_in Cs m IC c). tauto. Qed.
Lemma swap_swap fc : In fc Gd -> swap (swap fc) = fc.
Proof.
  destruct fc as [f c]. intros I. apply in_Gd in I as [[L G] LC]. destruct (IX f L) as [I1 I2]. pose proof (good_distinct f L G) as ND.
  unfold swap. cbn [fst snd]. rewrite (good_stays f c L G). f_equal.
  - apply puts_back; [exact NU|exact L|exact I1|exact ND|lia].
  - apply puts_same; [exact L|exact I1|exact ND|lia].
Qed.
Lemma swap_in fc : In fc Gd -> In (swap fc) All.
Proof.
  destruct fc as [f c]. intros I. apply in_Gd in I as [[L G] LC]. apply in_All. cbn [fst snd]. rewrite puts_length, map_length.
  split; [exact L|apply IX, L].
Qed.
Lemma NoDup_Gd : NoDup Gd.
Proof. apply NoDup_prod; [apply NoDup_filter, LF|apply tuples_NoDup, NC]. Qed.
Lemma NoDup_All : NoDup All.
Proof. apply NoDup_prod; [apply LF|apply tuples_NoDup, NC]. Qed.
Lemma NoDup_image : NoDup (map swap Gd).
Proof.
  apply NoDup_map_on; [exact NoDup_Gd|]. intros x y Ix Iy E. rewrite <- (swap_swap x Ix), <- (swap_swap y Iy), E. reflexivity.
Qed.
Lemma image_incl : incl (map swap Gd) All.
Proof. intros y I. apply in_map_iff in I as (x & <- & I). apply swap_in, I. Qed.
Definition programmed (fc : list bytes32 * list bytes32) : N := answer (snd fc) (fst fc) (puts U (fst fc) (X (fst fc)) (snd fc)).
Lemma swap_real fc : In fc Gd -> programmed (swap fc) = real (fst fc).
Proof.
  intros I. pose proof (swap_swap fc I) as S. destruct fc as [f c]. apply in_Gd in I as [[L G] LC].
  unfold programmed. unfold swap in *. cbn [fst snd] in *. injection S as S1 S2. rewrite S1. unfold answer.
  rewrite (good_view f c _ L G). reflexivity.
Qed.

Lemma pair_dec : forall x y : list bytes32 * list bytes32, {x = y} + {x <> y}.
Proof.
  assert (D : forall x y : list bytes32, {x = y} + {x <> y}) by (apply list_eq_dec, b32_eq_dec). decide equality.
Qed.
Lemma ind_le b : (ind b <= 1)%N. Proof. destruct b; cbn; lia. Qed.

Notation missed := (N.of_nat (length (filter (fun f => negb (good f)) Fs))).
Lemma lost : (N.of_nat (length All) = N.of_nat (length (map swap Gd)) + missed * N.of_nat (length Ct))%N.
Proof.
  rewrite map_length, !prod_length, (length_split good Fs). rewrite !Nat2N.inj_mul, Nat2N.inj_add. ring.
Qed.
Lemma one_view :
  let r := sum (fun f => real f) Fs in
  let i := sum (fun f => sum (fun c => answer c f f) Ct) Fs in
  let e := (sum (fun f => sum (fun c => ind (touches (X f) c f)) Ct) Fs + missed * N.of_nat (length Ct))%N in
  (r * N.of_nat (length Ct) <= i + e /\ i <= r * N.of_nat (length Ct) + e)%N.
Proof.
  cbv zeta.
  set (r := sum (fun f => real f) Fs). set (i := sum (fun f => sum (fun c => answer c f f) Ct) Fs).
  set (b := sum (fun f => sum (fun c => ind (touches (X f) c f)) Ct) Fs).
  set (g0 := fun fc : list bytes32 * list bytes32 => answer (snd fc) (fst fc) (fst fc)).
  set (bd := fun fc : list bytes32 * list bytes32 => ind (touches (X (fst fc)) (snd fc) (fst fc))).
  assert (Ei : i = sum g0 All) by (unfold i, g0; rewrite sum_prod; reflexivity).
  assert (Eb : b = sum bd All) by (unfold b, bd; rewrite sum_prod; reflexivity).
  assert (Er : (r * N.of_nat (length Ct))%N = sum (fun fc => real (fst fc)) All).
  { unfold r. rewrite sum_prod, <- sum_mul. apply sum_ext. intros f _. cbn [fst]. rewrite sum_same. lia. }
  assert (Eg : sum programmed (map swap Gd) = sum (fun fc => real (fst fc)) Gd).
  { rewrite sum_map. apply sum_ext. intros fc I. apply swap_real, I. }
  destruct (sum_part pair_dec (fun fc => real (fst fc)) Gd All NoDup_Gd NoDup_All) as [G1 G2].
  { intros [f c] I. apply in_Gd in I as [[L _] LC]. apply in_All. auto. }
  { intros; apply ind_le. }
  destruct (sum_part pair_dec g0 (map swap Gd) All NoDup_image NoDup_All image_incl) as [H1 H2]; [intros; apply ind_le|].
  destruct (sum_part pair_dec bd (map swap Gd) All NoDup_image NoDup_All image_incl) as [B1 _]; [intros; apply ind_le|].
  assert (P1 : (sum programmed (map swap Gd) <= sum g0 (map swap Gd) + sum bd (map swap Gd))%N).
  { rewrite <- sum_add. apply sum_le. intros [f c] _. apply answers_differ. }
  assert (P2 : (sum g0 (map swap Gd) <= sum programmed (map swap Gd) + sum bd (map swap Gd))%N).
  { rewrite <- sum_add. apply sum_le. intros [f c] _. apply answers_differ. }
  pose proof lost as Lo. pose proof (map_length swap Gd) as ML.
  rewrite Er, Ei, Eb. rewrite Eg in P1, P2. rewrite <- ML in G2.
  set (s1 := sum (fun fc => real (fst fc)) Gd) in *. set (s2 := sum (fun fc => real (fst fc)) All) in *.
  set (s3 := sum g0 (map swap Gd)) in *. set (s4 := sum g0 All) in *. set (s5 := sum bd (map swap Gd)) in *. set (s6 := sum bd All) in *.
  set (n1 := N.of_nat (length All)) in *. set (n2 := N.of_nat (length (map swap Gd))) in *. set (n3 := (missed * _)%N) in *.
  clearbody s1 s2 s3 s4 s5 s6 n1 n2 n3. clear - G1 G2 H1 H2 B1 P1 P2 Lo. lia.
Qed.
End Strings.

(** ** All entropies *)
Variables (n q : nat) (Es : list N) (Y : N -> list bytes32 -> list (list byte)).
Hypothesis few : forall x, modest n q (A x).
Hypothesis NE : NoDup Es.
Hypothesis good_apart : forall f e e' x, length f = length U -> good f = true -> In e Es -> In e' Es -> In x (Y e f) -> In x (Y e' f) -> e = e'.

Lemma touches_all f c : length f = length U -> good f = true -> (sum (fun e => ind (touches (Y e f) c f)) Es <= N.of_nat q)%N.
Proof.
  intros L G. rewrite sum_ind. set (b := fun e : N => touches (Y e f) c f). set (Q := asked (table U f) (A (v f c))).
  assert (PK : forall M, NoDup M -> (forall e, In e M -> In e Es /\ b e = true) ->
    exists xs, NoDup xs /\ incl xs Q /\ length xs = length M /\ forall x, In x xs -> exists e, In e M /\ In x (Y e f)).
  { induction M as [|e M IH]; intros NM IM; [exists []; split; [constructor|split; [intros x []|split; [reflexivity|intros x []]]]|].
    inversion NM as [|? ? Ne NM']. subst. destruct IH as (xs & N & I & LL & W); [exact NM'|intros e' I'; apply IM; right; exact I'|].
    destruct (IM e (or_introl eq_refl)) as [Ie B]. apply existsb_exists in B as (x & Ix & B). destruct (in_dec _ x _) as [J|]; [|discriminate].
    exists (x :: xs). split; [constructor; [|exact N]|split; [intros y [<-|Iy]; [exact J|apply I, Iy]|split; [cbn; lia|]]].
    - intros K. apply W in K as (e' & Ie' & K). assert (e = e') by (apply (good_apart f e e' x L G Ie); [apply IM; right; exact Ie'|exact Ix|exact K]).
      subst e'. contradiction.
    - intros y [<-|Iy]; [exists e; split; [left; reflexivity|exact Ix]|]. destruct (W y Iy) as (e' & Ie' & K). exists e'. split; [right; exact Ie'|exact K]. }
  destruct (PK (filter b Es)) as (xs & N & I & LL & _); [apply NoDup_filter, NE|intros e I; apply filter_In, I|].
  pose proof (NoDup_incl_length N I) as K. pose proof (asked_count (table U f) n (A (v f c)) q (few _)) as K2. unfold Q in K. lia.
Qed.
Lemma touches_total :
  (sum (fun e => sum (fun f => sum (fun c => ind (touches (Y e f) c f)) Ct) Fs) Es <=
   N.of_nat (length Ct) * (N.of_nat q * N.of_nat (length Fs) + N.of_nat (length (filter (fun f => negb (good f)) Fs)) * N.of_nat (length Es)))%N.
Proof.
  rewrite sum_swap.
  apply (N.le_trans _ (sum (fun f => (N.of_nat q + ind (negb (good f)) * N.of_nat (length Es)) * N.of_nat (length Ct))%N Fs)).
  - apply sum_le. intros f If. apply LF in If. rewrite sum_swap, (N.mul_comm _ (N.of_nat (length Ct))), <- sum_same. apply sum_le. intros c _.
    destruct (good f) eqn:G; cbn [negb ind].
    + rewrite N.mul_0_l, N.add_0_r. apply touches_all; assumption.
    + rewrite N.mul_1_l. apply (N.le_trans _ (sum (fun _ => 1%N) Es)); [apply sum_le; intros; apply ind_le|]. rewrite sum_same. lia.
  - rewrite sum_mul, sum_add, sum_same, sum_mul, sum_ind. lia.
Qed.
End View.
