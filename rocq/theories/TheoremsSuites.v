(** C96: what the suites for commitment schemes establish. *)
From Verif Require Import Base BaseFacts OrdMap Strict Digest Merkle MpcAtoms MpcTree Schemes Suites.
From Verif Require Import SpecHash SpecMisc SpecText SpecSuites HashFacts HideProofs.
Local Open Scope nat_scope.

Lemma bind_ret {A B} (x : outcome A) (k : A -> outcome B) r : bind x k = Ret r <-> exists a, x = Ret a /\ k a = Ret r.
Proof.
  destruct x as [a|p]; cbn; split.
  - intros E. exists a. auto.
  - intros (b & Q & E). injection Q as ->. exact E.
  - discriminate.
  - intros (b & Q & _). discriminate.
Qed.
Lemma assert_ret b r : assert b = Ret r <-> b = true.
Proof. destruct b, r; cbn; split; intros; try reflexivity; discriminate. Qed.
Lemma each_ret {A} (f : A -> outcome unit) l r : for_each f l = Ret r <-> forall x, In x l -> f x = Ret tt.
Proof.
  destruct r. induction l as [|x l IH]; cbn; [split; [intros _ ? []|reflexivity]|]. rewrite bind_ret. split.
  - intros ([] & E & R) y [<-|I]; [exact E|]. apply IH; assumption.
  - intros F. exists tt. split; [apply F; left; reflexivity|]. apply IH. intros y I. apply F. right. exact I.
Qed.
Lemma nine_ret f (b : bool) r : (forall i, f i = assert b) -> for_each f nine = Ret r <-> b = true.
Proof. intros E. rewrite each_ret. split; [intros F; specialize (F 1 (or_introl eq_refl)); rewrite E in F; apply assert_ret in F; exact F|intros -> i _; apply E]. Qed.
Lemma same_ret a b r : assert_same a b = Ret r <-> (a = true <-> b = true).
Proof. unfold assert_same. rewrite assert_ret. destruct a, b; cbn; intuition congruence. Qed.
Lemma ok_iff {E} (r : result unit E) : is_ok r = true <-> r = Ok tt.
Proof. destruct r as [[]|]; cbn; split; congruence. Qed.
Lemma err_iff {E} (r : result unit E) : is_err r = true <-> r <> Ok tt.
Proof. destruct r as [[]|]; cbn; split; congruence. Qed.

Section Fold.
Context {A K : Type} (step : list K -> A -> outcome (list K)) (key : A -> K -> Prop) (one : A -> Prop) (pair : K -> A -> Prop).
Hypothesis det : forall x k k', key x k -> key x k' -> k = k'.
Hypothesis stepped : forall acc x acc', step acc x = Ret acc' <->
  exists k, key x k /\ acc' = k :: acc /\ one x /\ forall y, In y acc -> pair y x.
Lemma fold_ret l : forall acc, (exists r, fold_out step l acc = Ret r) <->
  (forall x, In x l -> one x /\ exists k, key x k) /\ (forall y x, In y acc -> In x l -> pair y x) /\
  (forall a b k, precedes l a b -> key a k -> pair k b).
Proof.
  induction l as [|x l IH]; intros acc; cbn [fold_out].
  - split; [|eauto]. intros _. split; [intros ? []|split; [intros ? ? _ []|]]. intros a b k (u & v & w & Q). destruct u; discriminate.
  - split.
    + intros (r & E). apply bind_ret in E as (acc' & S & E). apply stepped in S as (k & Kk & -> & O & P).
      assert (X : exists r, fold_out step l (k :: acc) = Ret r) by eauto. apply IH in X as (X1 & X2 & X3).
      split; [intros y [<-|I]; [eauto|auto]|]. split; [intros y z I [<-|J]; [apply P, I|apply X2; [right; exact I|exact J]]|].
      intros a b k' (u & v & w & Q) Ka. destruct u as [|u0 u]; injection Q as -> Q.
      * rewrite (det _ _ _ Ka Kk). apply X2; [left; reflexivity|]. rewrite Q. apply in_or_app. right. left. reflexivity.
      * apply (X3 a b k'); [exists u, v, w; exact Q|exact Ka].
    + intros (X1 & X2 & X3). destruct (X1 x (or_introl eq_refl)) as (O & k & Kk).
      assert (S : step acc x = Ret (k :: acc)).
      { apply stepped. exists k. split; [exact Kk|split; [reflexivity|split; [exact O|]]]. intros y I. apply X2; [exact I|left; reflexivity]. }
      rewrite S. cbn. apply IH. split; [intros y I; apply X1; right; exact I|]. split.
      * intros y z [<-|I] J; [|apply X2; [exact I|right; exact J]]. apply in_split in J as (u & v & ->).
        apply (X3 x z k); [exists [], u, v; reflexivity|exact Kk].
      * intros a b k' (u & v & w & Q) Ka. apply (X3 a b k'); [|exact Ka]. exists (x :: u), v, w. rewrite Q. reflexivity.
Qed.
End Fold.
Lemma insert_ret {A} (eq : A -> A -> bool) x acc acc' : (let '(fresh, acc') := set_insert eq x acc in assert fresh ;;; Ret acc') = Ret acc' <->
  acc' = x :: acc /\ forall y, In y acc -> eq y x = false.
Proof.
  unfold set_insert. destruct (existsb (fun y => eq y x) acc) eqn:E; cbn; split.
  - discriminate.
  - intros (_ & F). apply existsb_exists in E as (y & I & E). rewrite F in E by exact I. discriminate.
  - intros Q. injection Q as <-. split; [reflexivity|]. intros y I. destruct (eq y x) eqn:Q; [|reflexivity].
    assert (existsb (fun y => eq y x) acc = true) by (apply existsb_exists; eauto). congruence.
  - intros (-> & _). reflexivity.
Qed.
Lemma done_ret {A} (x : outcome A) : (_a <- x ;; Ret tt) = Ret tt <-> exists r, x = Ret r.
Proof. rewrite bind_ret. split; [intros (a & E & _); eauto|intros (a & E); eauto]. Qed.
Lemma precedes_in {A} (l : list A) a b : precedes l a b -> In a l /\ In b l.
Proof. intros (x & y & z & ->). split; apply in_or_app; right; [left; reflexivity|]. right. apply in_or_app. right. left. reflexivity. Qed.
Lemma precedes_two {A} (l : list A) a b : In a l -> In b l -> a <> b -> precedes l a b \/ precedes l b a.
Proof.
  intros I J N. apply in_split in I as (x & y & ->). rewrite in_app_iff in J. destruct J as [J|[J|J]]; [|contradiction|].
  - right. apply in_split in J as (u & v & ->). exists u, v, y. rewrite <- app_assoc. reflexivity.
  - left. apply in_split in J as (u & v & ->). exists x, u, v. reflexivity.
Qed.
Lemma NoDup_precedes {A} (l : list A) : NoDup l <-> forall a b, precedes l a b -> a <> b.
Proof.
  split.
  - intros N a b (x & y & z & ->) <-. apply NoDup_remove_2 in N. apply N, in_or_app. right. apply in_or_app. right. left. reflexivity.
  - induction l as [|x l IH]; intros P; constructor.
    + intros I. apply in_split in I as (u & v & ->). apply (P x x); [exists [], u, v; reflexivity|reflexivity].
    + apply IH. intros a b (u & v & w & ->). apply P. exists (x :: u), v, w. reflexivity.
Qed.
Lemma Forall_precedes {A} (l : list A) (P : A -> A -> Prop) : (forall a b, precedes l a b -> P a b) -> NoDup l ->
  (forall a b, P a b -> P b a) -> forall a b, In a l -> In b l -> a <> b -> P a b.
Proof. intros F N S a b I J D. destruct (precedes_two l a b I J D); [|apply S]; apply F; assumption. Qed.

(** ** commit-verify *)
Lemma c96_commit : forall Msg Cmt (I : commit_verify Msg Cmt) meq messages (cmt_eq : decides (cv_eq I)) (msg_eq : decides meq),
  commit_verify_suite I meq messages = Ret tt <-> commit_sound I messages.
Proof.
  intros Msg Cmt I meq messages CE ME. unfold commit_verify_suite. rewrite done_ret.
  assert (V : forall c m, cv_verify I c m = Ok tt <-> cv_commit I m = c).
  { intros c m. unfold cv_verify. pose proof (CE (cv_commit I m) c) as X. destruct (cv_eq I (cv_commit I m) c); intuition congruence. }
  rewrite (fold_ret _ (fun x k => k = cv_commit I x) (fun x => forall m, In m messages -> cv_commit I m = cv_commit I x <-> m = x)
    (fun k x => cv_commit I x <> k)); [|congruence|].
  - split.
    + intros (X1 & _ & X3). split.
      * apply NoDup_precedes. intros a b P E. apply (X3 a b _ P eq_refl). congruence.
      * intros a b Ia Ib E. apply (proj1 (X1 b Ib) a Ia). exact E.
    + intros (N & J). split; [|split; [intros ? ? []|]].
      * intros x Ix. split; [|eauto]. intros m Im. split; [apply J; assumption|congruence].
      * intros a b k P -> E. pose proof (precedes_in _ _ _ P) as [Ia Ib]. pose proof (proj1 (NoDup_precedes _) N a b P) as D. apply D.
        apply J; [assumption|assumption|congruence].
  - intros acc x acc'. rewrite bind_ret. split.
    + intros ([] & _ & E). apply bind_ret in E as ([] & _ & E). apply bind_ret in E as ([] & S & E). apply bind_ret in E as ([] & R & E).
      apply insert_ret in E as (-> & _). exists (cv_commit I x). split; [reflexivity|split; [reflexivity|split]].
      * intros m Im. apply (proj1 (each_ret _ _ _) S) in Im. apply same_ret in Im. rewrite ok_iff, V, (ME m x) in Im. exact Im.
      * intros y Iy. apply (proj1 (each_ret _ _ _) R) in Iy. apply assert_ret in Iy. rewrite err_iff, V in Iy. exact Iy.
    + intros (k & -> & -> & O & P). exists tt. split; [apply each_ret; intros i _; apply assert_ret, CE; reflexivity|].
      apply bind_ret. exists tt. split; [apply assert_ret, ok_iff, V; reflexivity|].
      apply bind_ret. exists tt. split; [apply each_ret; intros m Im; apply same_ret; rewrite ok_iff, V, (ME m x); apply O, Im|].
      apply bind_ret. exists tt. split; [apply each_ret; intros y Iy; apply assert_ret, err_iff; rewrite V; apply P, Iy|].
      apply insert_ret. split; [reflexivity|]. intros y Iy. destruct (cv_eq I y (cv_commit I x)) eqn:Q; [|reflexivity].
      apply CE in Q. exfalso. apply (P y Iy). congruence.
Qed.

(** ** embed-commit-verify *)
Lemma c96_embed : forall Msg Cont Proof E (I : embed_scheme Msg Cont Proof E) meq messages container
  (cont_eq : decides (em_cont_eq I)) (msg_eq : decides meq),
  embed_commit_verify_suite I meq messages container = Ret tt <-> embed_sound I messages container.
Proof.
  intros Msg Cont Proof E I meq messages co CE ME. unfold embed_commit_verify_suite. rewrite done_ret.
  rewrite (fold_ret _ (fun x k => exists p, em_commit I co x = Ok (k, p))
    (fun x => exists c p, em_commit I co x = Ok (c, p) /\ em_verify I c x p = Ok tt /\ forall m, In m messages -> em_verify I c m p = Ok tt <-> m = x)
    (fun k x => forall c p, em_commit I co x = Ok (c, p) -> em_verify I k x p <> Ok tt /\ em_cont_eq I k c = false)).
  - split.
    + intros (X1 & _ & X3). split.
      * intros a Ia. destruct (proj1 (X1 a Ia)) as (c & p & Ec & _ & F). eauto.
      * intros a b ca pa cb pb P Ea Eb. apply (X3 a b ca P (ex_intro _ pa Ea) cb pb Eb).
    + intros (X1 & X3). split; [|split; [intros ? ? []|]].
      * intros x Ix. destruct (X1 x Ix) as (c & p & Ec & F). split; [exists c, p; split; [exact Ec|split; [apply F; auto|exact F]]|eauto].
      * intros a b k P (p & Ea) c pb Eb. split; [exact (X3 a b k p c pb P Ea Eb)|].
        destruct (em_cont_eq I k c) eqn:Q; [|reflexivity]. apply CE in Q. subst c. exfalso. apply (X3 a b k p k pb P Ea Eb).
        destruct (precedes_in _ _ _ P) as [_ Ib]. destruct (X1 b Ib) as (c' & p' & Eb' & F). assert (c' = k /\ p' = pb) as [-> ->] by (split; congruence).
        apply F; [exact Ib|reflexivity].
  - intros x k k' (p & E1) (p' & E2). congruence.
  - intros acc x acc'. rewrite bind_ret. split.
    + intros ([c p] & U & E0). destruct (em_commit I co x) as [[c1 p1]|e] eqn:Ec; [|discriminate]. cbn in U. injection U as -> ->.
      apply bind_ret in E0 as ([] & _ & E0). apply bind_ret in E0 as ([] & Z & E0). apply bind_ret in E0 as ([] & S & E0).
      apply bind_ret in E0 as ([] & R & E0). apply insert_ret in E0 as (-> & N). exists c. split; [eauto|split; [reflexivity|split]].
      * exists c, p. split; [reflexivity|]. apply assert_ret, ok_iff in Z. split; [exact Z|].
        intros m Im. apply (proj1 (each_ret _ _ _) S) in Im. apply same_ret in Im. rewrite ok_iff, (ME m x) in Im. exact Im.
      * intros y Iy c' p' Q. assert (c' = c /\ p' = p) as [-> ->] by (split; congruence). split; [|apply N, Iy].
        apply (proj1 (each_ret _ _ _) R) in Iy. apply assert_ret, err_iff in Iy. exact Iy.
    + intros (k & (p & Ec) & -> & (c & p' & Ec' & Z & F) & P). assert (c = k /\ p' = p) as [-> ->] by (split; congruence).
      exists (k, p). rewrite Ec. split; [reflexivity|]. apply bind_ret. exists tt. split; [apply each_ret; intros i _; cbn; apply assert_ret, CE; reflexivity|].
      apply bind_ret. exists tt. split; [apply assert_ret, ok_iff, Z|].
      apply bind_ret. exists tt. split; [apply each_ret; intros m Im; apply same_ret; rewrite ok_iff, (ME m x); apply F, Im|].
      apply bind_ret. exists tt. split; [apply each_ret; intros y Iy; apply assert_ret, err_iff, (P y Iy k p Ec)|].
      apply insert_ret. split; [reflexivity|]. intros y Iy. apply (P y Iy k p Ec).
Qed.

(** ** convolve-commit-verify *)
Lemma c96_convolve : forall Msg Src Cmt E (I : convolve_scheme Msg Src bytes32 Cmt bytes32 E) meq messages container
  (cmt_eq : decides (cc_cmt_eq I)) (msg_eq : decides meq),
  convolve_commit_verify_suite I meq messages container = Ret tt <-> convolve_sound I messages container.
Proof.
  intros Msg Src Cmt E I meq messages co CE ME. unfold convolve_sound. change all_ff with SUPPLEMENT. unfold convolve_commit_verify_suite. rewrite done_ret.
  rewrite (fold_ret _ (fun x k => exists p, cc_commit I co SUPPLEMENT x = Ok (k, p))
    (fun x => exists c p, cc_commit I co SUPPLEMENT x = Ok (c, p) /\ cc_verify I SUPPLEMENT x c = Ok tt /\
       forall m, In m messages -> cc_verify I SUPPLEMENT m c = Ok tt <-> m = x)
    (fun k x => cc_verify I SUPPLEMENT x k <> Ok tt /\ forall c p, cc_commit I co SUPPLEMENT x = Ok (c, p) -> cc_cmt_eq I k c = false)).
  - split.
    + intros (X1 & _ & X3). split.
      * apply NoDup_precedes. intros a b P <-. destruct (precedes_in _ _ _ P) as [Ia _]. destruct (proj1 (X1 a Ia)) as (c & p & Ec & Z & _).
        destruct (X3 a a c P (ex_intro _ p Ec)) as [Y _]. contradiction.
      * intros a Ia. destruct (proj1 (X1 a Ia)) as (c & p & Ec & _ & F). eauto.
    + intros (N & X1). split; [|split; [intros ? ? []|]].
      * intros x Ix. destruct (X1 x Ix) as (c & p & Ec & F). split; [exists c, p; split; [exact Ec|split; [apply F; auto|exact F]]|eauto].
      * intros a b k P (p & Ea). destruct (precedes_in _ _ _ P) as [Ia Ib]. pose proof (proj1 (NoDup_precedes _) N a b P) as D.
        assert (V : cc_verify I SUPPLEMENT b k <> Ok tt).
        { destruct (X1 a Ia) as (c & p' & Ea' & F). replace c with k in F by congruence. intros V. apply F in V; [congruence|exact Ib]. }
        split; [exact V|]. intros c pb Eb. destruct (cc_cmt_eq I k c) eqn:Q; [|reflexivity]. apply CE in Q. subst c. exfalso. apply V.
        destruct (X1 b Ib) as (c & p' & Eb' & F). replace c with k in F by congruence. apply F; [exact Ib|reflexivity].
  - intros x k k' (p & E1) (p' & E2). congruence.
  - intros acc x acc'. rewrite bind_ret. split.
    + intros ([c p] & U & E0). destruct (cc_commit I co SUPPLEMENT x) as [[c1 p1]|e] eqn:Ec; [|discriminate]. cbn in U. injection U as -> ->.
      apply bind_ret in E0 as ([] & _ & E0). apply bind_ret in E0 as ([] & Z & E0). apply bind_ret in E0 as ([] & S & E0).
      apply bind_ret in E0 as ([] & R & E0). apply insert_ret in E0 as (-> & N). exists c. split; [eauto|split; [reflexivity|split]].
      * exists c, p. split; [reflexivity|]. apply assert_ret, ok_iff in Z. split; [exact Z|].
        intros m Im. apply (proj1 (each_ret _ _ _) S) in Im. apply same_ret in Im. rewrite ok_iff, (ME m x) in Im. exact Im.
      * intros y Iy. split; [apply (proj1 (each_ret _ _ _) R) in Iy; apply assert_ret, err_iff in Iy; exact Iy|].
        intros c' p' Q. replace c' with c by congruence. apply N, Iy.
    + intros (k & (p & Ec) & -> & (c & p' & Ec' & Z & F) & P). assert (c = k /\ p' = p) as [-> ->] by (split; congruence).
      exists (k, p). rewrite Ec. split; [reflexivity|]. apply bind_ret. exists tt. split; [apply each_ret; intros i _; cbn; apply assert_ret, CE; reflexivity|].
      apply bind_ret. exists tt. split; [apply assert_ret, ok_iff, Z|].
      apply bind_ret. exists tt. split; [apply each_ret; intros m Im; apply same_ret; rewrite ok_iff, (ME m x); apply F, Im|].
      apply bind_ret. exists tt. split; [apply each_ret; intros y Iy; apply assert_ret, err_iff, (P y Iy)|].
      apply insert_ret. split; [reflexivity|]. intros y Iy. apply (P y Iy) with (p := p). exact Ec.
Qed.

(** ** What passing does not mean *)
Lemma bytes_decides : decides bytes_eqb. Proof. intros a b. apply bytes_eqb_eq. Qed.
Lemma dummy_verify c b p : em_verify dummy_embed c b p = Ok tt <-> c = p ++ b.
Proof.
  unfold em_verify. cbn. replace (bytes_eqb p p) with true by (symmetry; apply bytes_eqb_eq; reflexivity). cbn.
  destruct (bytes_eqb c (p ++ b)) eqn:Q; cbn; split; intros X; try reflexivity; try discriminate; [apply bytes_eqb_eq, Q|].
  apply bytes_eqb_eq in X. congruence.
Qed.
Lemma c96_dummy_embed : forall messages container (distinct : NoDup messages),
  embed_commit_verify_suite dummy_embed bytes_eqb messages container = Ret tt.
Proof.
  intros messages co N. apply c96_embed; [exact bytes_decides|exact bytes_decides|]. split.
  - intros a _. exists (co ++ a), co. split; [reflexivity|]. intros b _. rewrite dummy_verify. split; [intros Q; apply app_inv_head in Q; congruence|congruence].
  - intros a b ca pa cb pb P Ea Eb. injection Ea as <- <-. injection Eb as <- <-. rewrite dummy_verify. intros Q. apply app_inv_head in Q.
    exact (proj1 (NoDup_precedes _) N a b P Q).
Qed.
Lemma c96_embed_refuted : exists Msg Cont Proof E (I : embed_scheme Msg Cont Proof E) meq c a b p q,
  decides (em_cont_eq I) /\ decides meq /\ em_lawful I /\
  (forall messages container, NoDup messages -> embed_commit_verify_suite I meq messages container = Ret tt) /\
  a <> b /\ em_verify I c a p = Ok tt /\ em_verify I c b q = Ok tt.
Proof.
  exists (list byte), (list byte), (list byte), unit, dummy_embed, bytes_eqb, [x01; x02], [x01; x02], [x02], [], [x01].
  split; [exact bytes_decides|split; [exact bytes_decides|split]].
  - split; [intros c msg c' p Q; injection Q as <- <-; reflexivity| |]; intros; apply bytes_eqb_eq; reflexivity.
  - split; [exact c96_dummy_embed|split; [discriminate|split; apply dummy_verify; reflexivity]].
Qed.
(** The outcome depends on the order of the messages. *)
Lemma c96_order_refuted : exists Msg Cont Proof E (I : embed_scheme Msg Cont Proof E) meq a b container,
  decides (em_cont_eq I) /\ decides meq /\
  embed_commit_verify_suite I meq [a; b] container = Ret tt /\ embed_commit_verify_suite I meq [b; a] container = Panic PAssert.
Proof.
  exists bool, nat, bool, unit,
    (@EmbedScheme bool nat bool unit (fun c m => Ok (match c with 0 => if m then 2 else 1 | _ => 2 end, m))
       (fun p c => if p then Ok 0 else match c with 2 => Ok 5 | _ => Ok 0 end) Nat.eqb Bool.eqb), Bool.eqb, false, true, 0.
  split; [exact Nat.eqb_eq|split; [exact Bool.eqb_true_iff|split; vm_compute; reflexivity]].
Qed.

Section Conv.
Context {H : Hasher}.
Lemma dummy_commit src m : cc_commit dummy_convolve src SUPPLEMENT m = Ok (HASH (dummy_pre m), SUPPLEMENT).
Proof.
  cbn [dummy_convolve cc_commit]. unfold input_with_len.
  change (0xFFFFFFFF <=? 0xFF)%N with false. change (0xFFFFFFFF <=? 0xFFFF)%N with false. change (0xFFFFFFFF <=? 0xFFFFFF)%N with false.
  change (0xFFFFFFFF <=? 0xFFFFFFFF)%N with true. cbn [bind]. unfold digest_finish, input_raw, dummy_pre. rewrite <- !app_assoc. reflexivity.
Qed.
Lemma dummy_pre_inj a b : dummy_pre a = dummy_pre b -> a = b.
Proof.
  unfold dummy_pre. intros Q. apply app_inv_head in Q. apply app_inv_length in Q; [tauto|]. rewrite !le_length. reflexivity.
Qed.
Lemma cdummy_verify c b : cc_verify dummy_convolve SUPPLEMENT b c = Ok tt <-> c = HASH (dummy_pre b).
Proof.
  unfold cc_verify. change (cc_suppl dummy_convolve SUPPLEMENT) with SUPPLEMENT. rewrite dummy_commit.
  cbn [dummy_convolve cc_proof_eq cc_cmt_eq]. rewrite b32_eqb_refl. cbn [negb].
  destruct (b32_eqb c (HASH (dummy_pre b))) eqn:Q; cbn [negb]; split; intros X; try reflexivity; try discriminate; [apply b32_eqb_eq, Q|].
  apply b32_eqb_eq in X. congruence.
Qed.
End Conv.
(** The convolution of the test module passes, although its commitments do not depend on the container. *)
Lemma c96_dummy_convolve : forall (H : Hasher) messages container (distinct : NoDup messages),
  (convolve_commit_verify_suite dummy_convolve bytes_eqb messages container = Ret tt \/ collision_in (map dummy_pre messages)) /\
  (forall other s m, cc_commit dummy_convolve other s m = cc_commit dummy_convolve container s m).
Proof.
  intros H messages co N. split; [|reflexivity]. destruct (coll_dec (map dummy_pre messages)) as [C|C]; [right; exact C|left].
  apply c96_convolve; [intros a b; apply b32_eqb_eq|exact bytes_decides|]. split; [exact N|]. change all_ff with SUPPLEMENT. intros a Ia.
  exists (HASH (dummy_pre a)), SUPPLEMENT. split; [apply dummy_commit|]. intros b Ib. rewrite cdummy_verify. split; [|congruence].
  intros Q. apply dummy_pre_inj. destruct (coll (map dummy_pre messages) (dummy_pre b) (dummy_pre a)) as [X|X]; [apply in_map, Ib|apply in_map, Ia|congruence|exact X|contradiction].
Qed.
(** The crate's own runs of the suites *)
Lemma gen_distinct : NoDup gen_messages.
Proof.
  apply NoDup_precedes. intros a b P <-.
  assert (X : embed_sound dummy_embed gen_messages []) by (apply (c96_embed _ _ _ _ dummy_embed bytes_eqb); [exact bytes_decides|exact bytes_decides|vm_compute; reflexivity]).
  destruct X as [_ X]. apply (X a a a [] a [] P eq_refl eq_refl). apply dummy_verify. reflexivity.
Qed.
Lemma c96_own : forall (H : Hasher) container,
  as_documented gen_messages /\ NoDup gen_messages /\
  embed_commit_verify_suite dummy_embed bytes_eqb gen_messages container = Ret tt /\
  (convolve_commit_verify_suite dummy_convolve bytes_eqb gen_messages container = Ret tt \/ collision_in (map dummy_pre gen_messages)).
Proof.
  intros H co. split; [|split; [exact gen_distinct|split; [apply c96_dummy_embed, gen_distinct|apply c96_dummy_convolve, gen_distinct]]].
  exists [x74; x65; x73; x74], [xde; xad; xbe; xef], "0279be667ef9dcbbac55a06295ce870b07029bfcdb2dce28d959f2815b16f81798"%string,
    (nth 8 gen_messages []), (nth 9 gen_messages []).
  split; [reflexivity|split; [discriminate|split; [discriminate|split; [|split; [reflexivity|split; [reflexivity|vm_compute; discriminate]]]]]].
  vm_compute. repeat (apply hex_byte; [reflexivity|reflexivity|]). apply hex_nil.
Qed.
