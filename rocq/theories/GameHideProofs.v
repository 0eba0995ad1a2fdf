(** Lemmas for C93: sums, and changing a table at one string. *)
From Verif Require Import Base BaseFacts SpecHash SpecCount CountProofs SpecGame GameProofs SpecHideGame.
From Coq Require Import Permutation.
Local Open Scope nat_scope.

(** ** Sums *)
Definition sum {X} (g : X -> N) (L : list X) : N := fold_right (fun x a => (g x + a)%N) 0%N L.
Definition ind (b : bool) : N := if b then 1%N else 0%N.
Section Sums.
Context {X Y : Type}.
Implicit Types (g h : X -> N) (L : list X).
Lemma sum_le g h L : (forall x, In x L -> g x <= h x)%N -> (sum g L <= sum h L)%N.
Proof.
  induction L as [|x L IH]; intros E; [apply N.le_refl|]. cbn. apply N.add_le_mono; [apply E; left; reflexivity|].
  apply IH. intros y I. apply E. right. exact I.
Qed.
Lemma sum_ext g h L : (forall x, In x L -> g x = h x)%N -> sum g L = sum h L.
Proof. intros E. apply N.le_antisymm; apply sum_le; intros x I; rewrite (E x I); apply N.le_refl. Qed.
Lemma sum_add g h L : sum (fun x => g x + h x)%N L = (sum g L + sum h L)%N.
Proof. induction L as [|x L IH]; [reflexivity|]. unfold sum in *. cbn [fold_right app length map filter]. rewrite IH. lia. Qed.
Lemma sum_mul k g L : sum (fun x => g x * k)%N L = (sum g L * k)%N.
Proof. induction L as [|x L IH]; [reflexivity|]. unfold sum in *. cbn [fold_right app length map filter]. rewrite IH. lia. Qed.
Lemma sum_same k L : sum (fun _ => k) L = (N.of_nat (length L) * k)%N.
Proof. induction L as [|x L IH]; [reflexivity|]. unfold sum in *. cbn [fold_right length]. rewrite IH, Nat2N.inj_succ. lia. Qed.
Lemma sum_perm g L L' : Permutation L L' -> sum g L = sum g L'.
Proof. unfold sum. induction 1; cbn [fold_right]; [reflexivity|now rewrite IHPermutation|apply N.add_shuffle3|congruence]. Qed.
Lemma sum_app g L L' : sum g (L ++ L') = (sum g L + sum g L')%N.
Proof. induction L as [|x L IH]; [reflexivity|]. unfold sum in *. cbn [fold_right app length map filter]. rewrite IH. lia. Qed.
Lemma sum_ind (b : X -> bool) L : sum (fun x => ind (b x)) L = N.of_nat (length (filter b L)).
Proof. induction L as [|x L IH]; [reflexivity|]. unfold sum in *. cbn [fold_right app length map filter]. rewrite IH. destruct (b x); cbn [ind length]; lia. Qed.
End Sums.
Lemma sum_map {X Y} (g : Y -> N) (f : X -> Y) L : sum g (map f L) = sum (fun x => g (f x)) L.
Proof. induction L as [|x L IH]; [reflexivity|]. unfold sum in *. cbn [fold_right app length map filter]. rewrite IH. reflexivity. Qed.
Lemma sum_swap {X Y} (g : X -> Y -> N) L M : sum (fun x => sum (g x) M) L = sum (fun y => sum (fun x => g x y) L) M.
Proof.
  induction L as [|x L IH].
  - cbn. induction M as [|y M IHM]; [reflexivity|]. unfold sum in *. cbn [fold_right]. rewrite <- IHM. reflexivity.
  - change (sum (fun x => sum (g x) M) (x :: L)) with (sum (g x) M + sum (fun x => sum (g x) M) L)%N. rewrite IH, <- sum_add. apply sum_ext. reflexivity.
Qed.
Lemma sum_prod {X Y} (g : X * Y -> N) L M : sum g (list_prod L M) = sum (fun x => sum (fun y => g (x, y)) M) L.
Proof.
  induction L as [|x L IH]; [reflexivity|]. cbn [list_prod]. rewrite sum_app, sum_map, IH. reflexivity.
Qed.
Lemma NoDup_prod {X Y} (L : list X) (M : list Y) : NoDup L -> NoDup M -> NoDup (list_prod L M).
Proof.
  intros NL NM. induction NL as [|x L N NL IH]; cbn; [constructor|]. apply NoDup_app_intro.
  - apply FinFun.Injective_map_NoDup; [intros a b E; congruence|exact NM].
  - exact IH.
  - intros [a b] I J. apply in_map_iff in I as (y & E & _). injection E as <- <-. apply in_prod_iff in J as [J _]. contradiction.
Qed.
Lemma NoDup_map_on {X Y} (f : X -> Y) L : NoDup L -> (forall x y, In x L -> In y L -> f x = f y -> x = y) -> NoDup (map f L).
Proof.
  induction 1 as [|x L N ND IH]; intros F; cbn; constructor.
  - intros I. apply in_map_iff in I as (y & E & I). apply N. replace x with y; [exact I|]. apply F; [right; exact I|left; reflexivity|exact E].
  - apply IH. intros y z Iy Iz. apply F; right; assumption.
Qed.
Lemma sum_bij {X} (g : X -> N) (f : X -> X) L : NoDup L -> (forall x, In x L -> In (f x) L /\ f (f x) = x) ->
  sum g L = sum (fun x => g (f x)) L.
Proof.
  intros ND F. transitivity (sum g (map f L)); [|apply sum_map]. apply sum_perm. symmetry. apply NoDup_Permutation_bis.
  - apply NoDup_map_on; [exact ND|]. intros x y Ix Iy E. rewrite <- (proj2 (F x Ix)), <- (proj2 (F y Iy)), E. reflexivity.
  - rewrite map_length. apply le_n.
  - intros y I. apply in_map_iff in I as (x & <- & I). apply F, I.
Qed.
Lemma counts_ind {X} (P : X -> Prop) (b : X -> bool) L k : NoDup L -> (forall x, P x <-> In x L /\ b x = true) -> counts P k ->
  k = sum (fun x => ind (b x)) L.
Proof.
  intros ND E (M & NM & IM & <-). rewrite sum_ind. f_equal.
  assert (I1 : incl M (filter b L)) by (intros x I; apply filter_In, E, IM, I).
  assert (I2 : incl (filter b L) M) by (intros x I; apply IM, E, filter_In, I).
  apply NoDup_incl_length in I1; [|exact NM]. apply NoDup_incl_length in I2; [lia|]. apply NoDup_filter, ND.
Qed.
Lemma counts_exist {X} (P : X -> Prop) (b : X -> bool) L : NoDup L -> (forall x, P x <-> In x L /\ b x = true) ->
  counts P (sum (fun x => ind (b x)) L).
Proof.
  intros ND E. exists (filter b L). split; [apply NoDup_filter, ND|split; [|symmetry; apply sum_ind]].
  intros x. rewrite filter_In. symmetry. apply E.
Qed.

(** ** Changing one answer *)
Fixpoint put (U : list (list byte)) (f : list bytes32) (s : list byte) (c : bytes32) : list bytes32 :=
  match U, f with
  | u :: U', a :: f' => if bytes_eqb u s then c :: f' else a :: put U' f' s c
  | _, _ => f
  end.
Lemma put_length U : forall f s c, length (put U f s c) = length f.
Proof. induction U as [|u U IH]; intros [|a f] s c; cbn; try reflexivity. destruct (bytes_eqb u s); cbn; [reflexivity|]. now rewrite IH. Qed.
Lemma put_same U : forall f s c, length f = length U -> In s U -> table U (put U f s c) s = c.
Proof.
  induction U as [|u U IH]; intros [|a f] s c L I; try discriminate; [destruct I|]. cbn [put].
  destruct (bytes_eqb u s) eqn:E; cbn [table]; rewrite E; [reflexivity|]. apply IH; [cbn in L; lia|].
  destruct I as [->|I]; [|exact I]. assert (bytes_eqb s s = true) by (apply bytes_eqb_eq; reflexivity). congruence.
Qed.
Lemma put_other U : forall f s c s', s <> s' -> table U (put U f s c) s' = table U f s'.
Proof.
  induction U as [|u U IH]; intros [|a f] s c s' N; cbn [put]; try reflexivity.
  destruct (bytes_eqb u s) eqn:E; cbn [table].
  - destruct (bytes_eqb u s') eqn:E'; [|reflexivity]. apply bytes_eqb_eq in E, E'. congruence.
  - destruct (bytes_eqb u s'); [reflexivity|]. apply IH, N.
Qed.
Lemma put_back U f s c : NoDup U -> length f = length U -> In s U -> put U (put U f s c) s (table U f s) = f.
Proof.
  intros ND L I. apply (table_ext U); [exact ND|rewrite !put_length; exact L|exact L|]. intros u Iu.
  destruct (list_eq_dec Byte.byte_eq_dec s u) as [<-|N].
  - apply put_same; [rewrite put_length; exact L|exact I].
  - rewrite !put_other by exact N. reflexivity.
Qed.

(** A program which does not ask [x] does not notice. *)
Lemma exec_other {A} (H H' : Hasher) x (p : prog A) : (forall s, s <> x -> H' s = H s) -> ~ In x (asked H p) -> exec H' p = exec H p.
Proof.
  intros E. induction p as [a|s k IH]; [reflexivity|]. cbn [asked exec In]. intros N. rewrite (E s) by tauto. apply IH. tauto.
Qed.
Lemma asked_count {A} (H : Hasher) n (p : prog A) : forall q, modest n q p -> length (asked H p) <= q.
Proof.
  induction p as [a|s k IH]; intros q M; cbn [asked length]; [lia|]. cbn in M. destruct q as [|q]; [destruct M|].
  apply le_n_S, IH, M.
Qed.

(** ** The number of pairs for one entropy: [X f] is the string hashed last, [A] the adversary. *)
Definition yes (U : list (list byte)) (A : bytes32 -> prog bool) (c : bytes32) (f : list bytes32) : N := ind (exec (table U f) (A c)).
Definition bad (U : list (list byte)) (A : bytes32 -> prog bool) (x : list byte) (c : bytes32) (f : list bytes32) : N :=
  ind (if in_dec (list_eq_dec Byte.byte_eq_dec) x (asked (table U f) (A c)) then true else false).
Lemma moved U Fs Cs A (X : list bytes32 -> list byte) : NoDup U -> lists_all Fs (fun f => length f = length U) ->
  NoDup Cs -> (forall c, In c Cs) -> (forall f, length f = length U -> In (X f) U) ->
  (forall f c, length f = length U -> X (put U f (X f) c) = X f) ->
  (sum (fun f => yes U A (table U f (X f)) f) Fs * N.of_nat (length Cs))%N =
  sum (fun f => sum (fun c => yes U A c (put U f (X f) c)) Cs) Fs.
Proof.
  intros NU [NF IF] NC IC IX EX.
  transitivity (sum (fun fc => yes U A (table U (fst fc) (X (fst fc))) (fst fc)) (list_prod Fs Cs)).
  - rewrite sum_prod, <- sum_mul. apply sum_ext. intros f _. cbn [fst]. rewrite sum_same. lia.
  - rewrite (sum_bij _ (fun fc => (put U (fst fc) (X (fst fc)) (snd fc), table U (fst fc) (X (fst fc))))).
    + rewrite sum_prod. apply sum_ext. intros f If. apply sum_ext. intros c _. cbn [fst snd].
      rewrite EX by apply IF, If. rewrite put_same; [reflexivity|apply IF, If|apply IX, IF, If].
    + apply NoDup_prod; assumption.
    + intros [f c] I. apply in_prod_iff in I as [If _]. apply IF in If. cbn [fst snd]. split.
      * apply in_prod_iff. split; [apply IF; rewrite put_length; exact If|apply IC].
      * rewrite EX by exact If. f_equal; [apply put_back; [exact NU|exact If|apply IX, If]|apply put_same; [exact If|apply IX, If]].
Qed.
Lemma one_answer U A x c f : (yes U A c (put U f x c) <= yes U A c f + bad U A x c f)%N /\ (yes U A c f <= yes U A c (put U f x c) + bad U A x c f)%N.
Proof.
  unfold yes, bad. destruct (in_dec _ x (asked (table U f) (A c))) as [I|N].
  - cbn [ind]. destruct (exec _ _), (exec _ _); cbn; lia.
  - rewrite (exec_other (table U f) (table U (put U f x c)) x); [cbn [ind]; lia| |exact N].
    intros s D. apply put_other. congruence.
Qed.
Lemma one_entropy U Fs Cs A (X : list bytes32 -> list byte) : NoDup U -> lists_all Fs (fun f => length f = length U) ->
  NoDup Cs -> (forall c, In c Cs) -> (forall f, length f = length U -> In (X f) U) ->
  (forall f c, length f = length U -> X (put U f (X f) c) = X f) ->
  (sum (fun f => yes U A (table U f (X f)) f) Fs * N.of_nat (length Cs) <=
   sum (fun f => sum (fun c => yes U A c f) Cs) Fs + sum (fun f => sum (fun c => bad U A (X f) c f) Cs) Fs /\
   sum (fun f => sum (fun c => yes U A c f) Cs) Fs <=
   sum (fun f => yes U A (table U f (X f)) f) Fs * N.of_nat (length Cs) + sum (fun f => sum (fun c => bad U A (X f) c f) Cs) Fs)%N.
Proof.
  intros NU LF NC IC IX EX. rewrite (moved U Fs Cs A X NU LF NC IC IX EX). split.
  - rewrite <- sum_add. apply sum_le. intros f _. rewrite <- sum_add. apply sum_le. intros c _. apply one_answer.
  - rewrite <- sum_add. apply sum_le. intros f _. rewrite <- sum_add. apply sum_le. intros c _. apply one_answer.
Qed.

(** ** All entropies *)
Lemma bad_all U A n q Es (X : N -> list bytes32 -> list byte) f c : modest n q (A c) -> NoDup Es ->
  (forall e e', In e Es -> In e' Es -> X e f = X e' f -> e = e') ->
  (sum (fun e => bad U A (X e f) c f) Es <= N.of_nat q)%N.
Proof.
  intros M NE I. unfold bad. rewrite sum_ind. set (b := fun e : N => _).
  assert (K : length (filter b Es) <= length (asked (table U f) (A c))).
  { rewrite <- (map_length (fun e => X e f)). apply NoDup_incl_length.
    - apply NoDup_map_on; [apply NoDup_filter, NE|]. intros e e' Ie Ie'. apply filter_In in Ie as [Ie _], Ie' as [Ie' _]. apply I; assumption.
    - intros s Is. apply in_map_iff in Is as (e & <- & Ie). apply filter_In in Ie as [_ Ie]. unfold b in Ie.
      destruct (in_dec _ _ _); [assumption|discriminate]. }
  pose proof (asked_count (table U f) n (A c) q M). lia.
Qed.
Lemma bad_any U A Es (X : N -> list bytes32 -> list byte) f c : (sum (fun e => bad U A (X e f) c f) Es <= N.of_nat (length Es))%N.
Proof.
  rewrite <- (N.mul_1_r (N.of_nat (length Es))), <- sum_same. apply sum_le. intros e _. unfold bad, ind. destruct (in_dec _ _ _); lia.
Qed.
