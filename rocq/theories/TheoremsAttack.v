(** C106: attacks which reach the bounds of C92 and C105 up to constant factors. *)
From Verif Require Import Base BaseFacts OrdMap OrdMapFacts Strict Merkle MpcAtoms MpcTree MpcBlock.
From Verif Require Import SpecHash SpecTree SpecMerkle SpecFull SpecValid SpecFind SpecBlock SpecCommit SpecCount SpecGame SpecHideGame SpecViewGame SpecBlockGame SpecTalk SpecMany SpecTarget.
From Verif Require Import HashFacts TreeFacts MpcTreeProofs PathProofs CountProofs GameProofs AttackProofs.
From Verif Require Import TheoremsMpc TheoremsExt TheoremsFind TheoremsGame TheoremsTalk TheoremsMany TheoremsTarget.
From Verif Require Import SpecGame.
Local Open Scope nat_scope.

(** ** Asking for leaves and looking for equal answers *)
Fixpoint p_asks (L : list (list byte)) : prog (list bytes32) :=
  match L with [] => Done [] | s :: L' => Ask s (fun a => andthen (p_asks L') (fun r => Done (a :: r))) end.
Lemma p_asks_exec H L : exec H (p_asks L) = map H L.
Proof. induction L as [|s L IH]; [reflexivity|]. cbn [p_asks exec map]. rewrite exec_andthen, IH. reflexivity. Qed.
Lemma p_asks_modest n L : (forall s, In s L -> length s <= n) -> modest n (length L) (p_asks L).
Proof.
  induction L as [|s L IH]; intros B; [exact I|]. cbn [p_asks length modest]. split; [apply B; left; reflexivity|]. intros a.
  replace (length L) with (length L + 0) by lia. apply modest_andthen; [apply IH; intros t It; apply B; right; exact It|intros; exact I].
Qed.
(** Two different entries with the same answer, the first one from [ts] *)
Fixpoint hit (ts all : list (bytes32 * bytes32)) : option (bytes32 * bytes32) :=
  match ts with
  | [] => None
  | (m, a) :: r =>
      match find (fun x => negb (b32_eqb m (fst x)) && b32_eqb (snd x) a) all with
      | Some (m', _) => Some (m, m')
      | None => hit r all
      end
  end.
Lemma hit_some ts all m m' : hit ts all = Some (m, m') -> m <> m' /\ exists a, In (m, a) ts /\ In (m', a) all.
Proof.
  induction ts as [|[m0 a] ts IH]; [discriminate|]. cbn [hit]. destruct (find _ all) as [[m1 a1]|] eqn:E.
  - intros X. injection X as -> ->. apply find_some in E as [I E]. cbn [fst snd] in E. apply andb_true_iff in E as [E1 E2].
    apply b32_eqb_eq in E2. subst a1. split; [intros <-; rewrite (proj2 (b32_eqb_eq m m) eq_refl) in E1; discriminate|]. exists a. split; [left; reflexivity|exact I].
  - intros X. destruct (IH X) as [N (b & I1 & I2)]. split; [exact N|]. exists b. split; [right; exact I1|exact I2].
Qed.
Lemma hit_none ts all : hit ts all = None -> forall m a m', In (m, a) ts -> In (m', a) all -> m = m'.
Proof.
  induction ts as [|[m0 a0] ts IH]; intros E m a m' I1 I2; [destruct I1|]. cbn [hit] in E. destruct (find _ all) as [[m1 a1]|] eqn:F; [discriminate|].
  destruct I1 as [X|I1]; [|exact (IH E m a m' I1 I2)]. injection X as -> ->.
  pose proof (find_none _ _ F (m', a) I2) as G. cbn [fst snd] in G. rewrite (proj2 (b32_eqb_eq a a) eq_refl), andb_true_r in G.
  apply negb_false_iff, b32_eqb_eq in G. exact G.
Qed.
Lemma in_answers (g : bytes32 -> bytes32) ms m a : In (m, a) (combine ms (map g ms)) <-> In m ms /\ a = g m.
Proof.
  induction ms as [|x ms IH]; [cbn; tauto|]. cbn [map combine In]. rewrite IH. split.
  - intros [X|[I E]]; [injection X as <- <-; auto|auto].
  - intros [[<-|I] ->]; auto.
Qed.
Lemma no_hit g ts all : incl ts all -> NoDup ts -> hit (combine ts (map g ts)) (combine all (map g all)) = None ->
  NoDup (map g ts) /\ forall m m', In m ts -> In m' all -> g m = g m' -> m = m'.
Proof.
  intros Inc ND E. assert (K : forall m m', In m ts -> In m' all -> g m = g m' -> m = m').
  { intros m m' I I' G. apply (hit_none _ _ E m (g m)); apply in_answers; auto. }
  split; [|exact K]. clear E. assert (K' : forall m m', In m ts -> In m' ts -> g m = g m' -> m = m') by auto. clear K Inc.
  induction ts as [|x ts IH]; [constructor|]. inversion ND as [|? ? NI ND']; subst. cbn [map]. constructor.
  - intros J. apply in_map_iff in J as [y [G J]]. apply NI. rewrite (K' x y); [exact J|left; reflexivity|right; exact J|congruence].
  - apply IH; [exact ND'|]. intros m m' I I'. apply K'; right; assumption.
Qed.

Lemma leaf_not_tag th pid m : @s_leaf (always th) pid m <> s_node_tag.
Proof.
  intros E. apply (f_equal (@length byte)) in E. unfold s_leaf, s_pre in E. rewrite !app_length in E. cbn [length] in E. rewrite app_length, !b32_length in E.
  revert E. vm_compute. discriminate.
Qed.
Lemma leaf_one th pid m m' : @s_leaf (always th) pid m = @s_leaf (always th) pid m' -> m = m'.
Proof. intros E. apply (@s_leaf_inj (always th)) in E. apply E. Qed.
Lemma leaves_NoDup th pid ms : NoDup ms -> NoDup (map (@s_leaf (always th) pid) ms).
Proof.
  intros ND. induction ND as [|m ms NI ND IH]; [constructor|]. cbn [map]. constructor; [|exact IH].
  intros J. apply in_map_iff in J as [m' [E J]]. apply NI. rewrite (leaf_one _ _ _ _ (eq_sym E)). exact J.
Qed.
Lemma NoDup_first {A} q (l : list A) : NoDup l -> NoDup (firstn q l).
Proof.
  revert q. induction l as [|x l IH]; intros q ND; [rewrite firstn_nil; constructor|]. destruct q as [|q]; [constructor|].
  inversion ND as [|? ? NI ND']; subst. cbn [firstn]. constructor; [|apply IH, ND']. intros J. apply NI.
  rewrite <- (firstn_skipn q l). apply in_or_app. left. exact J.
Qed.
Lemma some_messages q (X : list bytes32) : NoDup X -> (N.of_nat (q + length X) <= 2 ^ 256)%N -> exists ms, NoDup (X ++ ms) /\ length ms = q.
Proof.
  intros NX L. destruct all_ids as (S & SN & SI & SL).
  set (F := filter (fun a => if in_dec b32_eq_dec a X then false else true) S).
  assert (FN : NoDup F) by (apply NoDup_filter, SN).
  assert (FX : forall a, In a F -> ~ In a X). { intros a I. apply filter_In in I as [_ I]. destruct (in_dec _ _ _); [discriminate|assumption]. }
  assert (FL : length S <= length X + length F).
  { rewrite <- app_length. apply NoDup_incl_length; [exact SN|]. intros a I. apply in_or_app. destruct (in_dec b32_eq_dec a X) as [D|D]; [left; exact D|right].
    apply filter_In. split; [exact I|]. destruct (in_dec _ _ _); [contradiction|reflexivity]. }
  exists (firstn q F). split.
  - assert (PN : NoDup (firstn q F)) by (apply NoDup_first, FN).
    assert (PX : forall a, In a (firstn q F) -> ~ In a X) by (intros a I; apply FX; rewrite <- (firstn_skipn q F); apply in_or_app; left; exact I).
    clearbody F. clear - NX PN PX. induction NX as [|x X NI NX IH]; [exact PN|]. cbn [app]. constructor.
    + intros J. apply in_app_or in J as [J|J]; [exact (NI J)|]. apply (PX x J). left. reflexivity.
    + apply IH. intros a I J. apply (PX a I). right. exact J.
  - rewrite firstn_length. lia.
Qed.

(** ** Collisions: two messages for one proof *)
Definition p_pair (pf : merkle_proof) (pid : bytes32) (ms : list bytes32) : prog (merkle_proof * bytes32 * merkle_proof * bytes32 * bytes32) :=
  Ask s_node_tag (fun th => andthen (p_asks (map (@s_leaf (always th) pid) ms)) (fun xs =>
    match hit (combine ms xs) (combine ms xs) with Some (m, m') => Done (pf, m, pf, m', pid) | None => Done (pf, pid, pf, pid, pid) end)).
Lemma c106_collide : forall n U q pf pid
  (strings : universe n U) (short : 162 <= n) (enough : (N.of_nat q <= 2 ^ 256)%N)
  (valid : valid_proof pf) (depth : length (mp_path pf) <= 31) (place : mp_pos pf = s_pos pid (mp_cofactor pf) (length (mp_path pf))),
  exists adversary : prog (merkle_proof * bytes32 * merkle_proof * bytes32 * bytes32), modest n (q + 1) adversary /\
  rare U (fun H => ~ let '(pf1, m1, pf2, m2, pid) := exec H adversary in
            valid_proof pf1 /\ valid_proof pf2 /\ m1 <> m2 /\
            exists c, forall md, @convolve H md pf1 pid m1 = Ret (Ok c) /\ @convolve H md pf2 pid m2 = Ret (Ok c))
       (2 ^ 257) (2 ^ 257 + N.of_nat q * N.of_nat (q - 1)).
Proof.
  intros n U q pf pid UU Sh En V D Pl. destruct (some_messages q [] (NoDup_nil _)) as (ms & Nm & Lm); [rewrite Nat.add_0_r; exact En|]. cbn [app] in Nm.
  exists (p_pair pf pid ms). split.
  - replace (q + 1) with (1 + (q + 0)) by lia. split; [eapply Nat.le_trans; [apply tag_length|exact Sh]|]. intros th.
    apply (modest_andthen n _ _ q 0).
    + rewrite <- Lm, <- (map_length (@s_leaf (always th) pid)). apply p_asks_modest. intros s I. apply in_map_iff in I as [m [<- _]].
      eapply Nat.le_trans; [apply (@leaf_length (always th))|exact Sh].
    + intros xs. destruct (hit _ _) as [[m m']|]; exact I.
  - destruct UU as [NU IU]. intros B NB HB. apply (on_answer U s_node_tag B); [apply IU; eapply Nat.le_trans; [apply tag_length|exact Sh]|exact NB|].
    intros th r1 r2 B' CV I N' E.
    pose proof (scattered U NU (map (@s_leaf (always th) pid) ms) [(s_node_tag, th)] (r1 ++ r2) B' []) as X. rewrite map_length, Lm in X. cbn [length] in X.
    change (N.of_nat 0) with 0%N in X. rewrite N.mul_0_r, N.mul_0_l, N.add_0_r in X. change (2 * 2 ^ 256)%N with (2 ^ 257)%N in X. apply X; clear X.
    + intros s J. apply in_map_iff in J as [m [<- _]]. apply IU. eapply Nat.le_trans; [apply (@leaf_length (always th))|exact Sh].
    + apply leaves_NoDup, Nm.
    + intros s J [K|[]]. apply in_map_iff in J as [m [<- _]]. exact (leaf_not_tag th pid m (eq_sym K)).
    + constructor.
    + exact CV.
    + exact N'.
    + intros f If. destruct (HB f (I f If)) as [Lf Bad]. split; [exact Lf|split; [|split; [|intros s _ []]]].
      { intros s a [Q|[]]. injection Q as <- <-. apply E, If. }
      set (H := table U f : Hasher) in *. unfold p_pair in Bad. cbn [exec] in Bad. rewrite exec_andthen, p_asks_exec in Bad.
      change (H s_node_tag) with (table U f s_node_tag) in Bad. rewrite (E f If) in Bad. rewrite map_map in *.
      destruct (hit _ _) as [[m m']|] eqn:Eh; cbn [exec] in Bad.
      * destruct Bad. destruct (hit_some _ _ _ _ Eh) as [Nmm (a & I1 & I2)].
        apply (in_answers (fun m => H (@s_leaf (always th) pid m))) in I1 as [_ ->], I2 as [_ Ea].
        split; [exact V|split; [exact V|split; [exact Nmm|]]].
        assert (Le : forall m, @s_leaf H pid m = @s_leaf (always th) pid m) by (intros; unfold s_leaf, s_pre; do 2 f_equal; unfold HASH; rewrite (E f If : H s_node_tag = th); reflexivity).
        exists (@pcommit H (length (mp_path pf)) (mp_cofactor pf) (proof_tree pf pid m)). intros md.
        assert (C1 : @convolve H md pf pid m = Ret (Ok (@pcommit H (length (mp_path pf)) (mp_cofactor pf) (proof_tree pf pid m)))).
        { pose proof (@c03_convolve_total H md pf pid m D) as A. cbv zeta in A. rewrite <- Pl, N.eqb_refl in A. exact A. }
        split; [exact C1|]. apply (c90_tight H md pf pid m m' _ C1). unfold HASH. rewrite !Le. exact Ea.
      * apply (no_hit (fun m => H (@s_leaf (always th) pid m)) ms ms (incl_refl _) Nm Eh).
Qed.

(** ** Second preimages: another message for a commitment made beforehand *)
Definition p_other (pid : bytes32) (ts : list (bytes32 * merkle_tree)) (ms : list bytes32) : prog (merkle_proof * bytes32 * bytes32) :=
  let none := (MProof Sha256t 0 0 [], pid, pid) in
  Ask s_node_tag (fun th => andthen (p_asks (map (@s_leaf (always th) pid) (map fst ts ++ ms))) (fun xs =>
    match hit (combine (map fst ts) xs) (combine (map fst ts ++ ms) xs) with
    | Some (m, m') =>
        match find (fun x => b32_eqb m (fst x)) ts with
        | Some (_, t) => andthen (p_answer t (OpenProof pid)) (fun y => match y with GivenProof pf => Done (pf, pid, m') | _ => Done none end)
        | None => Done none
        end
    | None => Done none
    end)).
Lemma combine_app {A B} (l l' : list A) (r r' : list B) : length l = length r -> combine l (r ++ r') = combine l r.
Proof. revert r. induction l as [|x l IH]; intros [|y r] E; try discriminate; [reflexivity|]. cbn. f_equal. apply IH. now injection E. Qed.
Lemma made_with_entropy src rng t : try_commit src rng = Ret (Ok t) -> exists e, try_commit src (Some e) = Ret (Ok t).
Proof.
  intros E. destruct rng as [e|]; [exists e; exact E|]. exists 0%N. revert E. unfold try_commit.
  destruct (_ && _); [discriminate|]. destruct (_ <? _)%N; [discriminate|]. destruct (ms_static_entropy src); [intros E; exact E|discriminate].
Qed.
Lemma pick_trees D made pid ms : made_before D made ->
  (forall m, In m ms -> exists src rng, In (src, rng) made /\ In (pid, m) (ms_messages src)) ->
  exists ts, map fst ts = ms /\ forall m t, In (m, t) ts -> mt_depth t <= D /\
    exists src rng e, In (src, rng) made /\ valid_source src /\ In (pid, m) (ms_messages src) /\
      try_commit src rng = Ret (Ok t) /\ try_commit src (Some e) = Ret (Ok t).
Proof.
  intros Bf. induction ms as [|m ms IH]; intros K; [exists []; split; [reflexivity|intros m t []]|].
  destruct IH as (ts & <- & T); [intros x I; apply K; right; exact I|].
  destruct (K m (or_introl eq_refl)) as (src & rng & I & Im). destruct (Bf src rng I) as (V & t & E & L).
  destruct (made_with_entropy _ _ _ E) as [e Ee]. exists ((m, t) :: ts). split; [reflexivity|].
  intros m' t' [X|J]; [|exact (T m' t' J)]. injection X as <- <-. split; [exact L|]. exists src, rng, e. auto.
Qed.
Lemma c106_second : forall n U q D made pid ms
  (strings : universe n U) (short : 162 <= n) (before : made_before D made) (different : NoDup ms)
  (targets : forall m, In m ms -> exists src rng, In (src, rng) made /\ In (pid, m) (ms_messages src))
  (enough : (N.of_nat (q + length ms) <= 2 ^ 256)%N),
  exists adversary : prog (merkle_proof * bytes32 * bytes32), modest n (q + length ms + (3 * 2 ^ D + 3)) adversary /\
  rare U (fun H => ~ let '(pf, pid, msg) := exec H adversary in
            valid_proof pf /\ exists src t c, committed H made src t c /\ ~ In (pid, msg) (ms_messages src) /\
              forall md, @convolve H md pf pid msg = Ret (Ok c))
       (2 ^ 256) (2 ^ 256 + N.of_nat (length ms) * N.of_nat q).
Proof.
  intros n U q D made pid tm UU Sh Bf Nt Tg En. destruct (pick_trees D made pid tm Bf Tg) as (ts & Et & T).
  destruct (some_messages q tm Nt En) as (ms & Nm & Lm).
  exists (p_other pid ts ms). split.
  - apply (modest_mono n _ (1 + (length (tm ++ ms) + (3 * 2 ^ D + 2)))); [rewrite app_length; lia|].
    split; [eapply Nat.le_trans; [apply tag_length|exact Sh]|]. intros th. rewrite Et.
    apply (modest_andthen n _ _ (length (tm ++ ms)) (3 * 2 ^ D + 2)).
    + rewrite <- (map_length (@s_leaf (always th) pid)). apply p_asks_modest. intros s I. apply in_map_iff in I as [m [<- _]].
      eapply Nat.le_trans; [apply (@leaf_length (always th))|exact Sh].
    + intros xs. destruct (hit _ _) as [[m m']|]; [|exact I]. destruct (find _ ts) as [[m0 t]|] eqn:F; [|exact I].
      apply find_some in F as [F _]. replace (3 * 2 ^ D + 2) with (3 * 2 ^ D + 2 + 0) by lia.
      apply modest_andthen; [apply p_answer_modest; [exact Sh|apply (T m0 t F)]|]. intros [b|pf|c]; exact I.
  - destruct UU as [NU IU]. intros B NB HB. apply (on_answer U s_node_tag B); [apply IU; eapply Nat.le_trans; [apply tag_length|exact Sh]|exact NB|].
    intros th r1 r2 B' CV I N' E.
    pose proof (avoid_both U NU (map (@s_leaf (always th) pid) tm) (map (@s_leaf (always th) pid) ms) [(s_node_tag, th)] (r1 ++ r2) B' []) as X.
    rewrite !map_length, Lm in X. cbn [length] in X. rewrite Nat.add_0_r, <- map_app in X. apply X; clear X.
    + intros s J. apply in_map_iff in J as [m [<- _]]. apply IU. eapply Nat.le_trans; [apply (@leaf_length (always th))|exact Sh].
    + apply leaves_NoDup, Nm.
    + intros s J [K|[]]. apply in_map_iff in J as [m [<- _]]. exact (leaf_not_tag th pid m (eq_sym K)).
    + constructor.
    + exact CV.
    + exact N'.
    + intros f If. destruct (HB f (I f If)) as [Lf Bad]. split; [exact Lf|split].
      { intros s a [Q|[]]. injection Q as <- <-. apply E, If. }
      set (H := table U f : Hasher) in *. unfold p_other in Bad. cbn [exec] in Bad. rewrite exec_andthen, p_asks_exec in Bad.
      change (H s_node_tag) with (table U f s_node_tag) in Bad. rewrite (E f If), Et, !map_map in Bad. rewrite !map_map.
      set (g := fun m => H (@s_leaf (always th) pid m)) in *. change (fun x => table U f (@s_leaf (always th) pid x)) with g.
      rewrite map_app, (combine_app tm ms (map g tm) (map g ms) (eq_sym (map_length _ _))), <- map_app in Bad.
      destruct (hit _ _) as [[m m']|] eqn:Eh.
      * destruct Bad. destruct (hit_some _ _ _ _ Eh) as [Nmm (a & I1 & I2)].
        apply in_answers in I1 as [I1 ->], I2 as [I2 Ea]. rewrite <- Et in I1. apply in_map_iff in I1 as [[m1 t1] [Em It]]. cbn [fst] in Em. subst m1.
        destruct (find (fun x => b32_eqb m (fst x)) ts) as [[m0 t]|] eqn:F.
        2: { pose proof (find_none _ _ F (m, t1) It) as Z. cbn [fst] in Z. rewrite (proj2 (b32_eqb_eq m m) eq_refl) in Z. discriminate. }
        apply find_some in F as [F Z]. cbn [fst] in Z. apply b32_eqb_eq in Z. subst m0. clear It t1.
        destruct (T m t F) as (_ & src & rng & e & Is & V & Im & E1 & E2).
        rewrite exec_andthen.
        pose proof (p_answer_exec H src e t [pid] (OpenProof pid) V E2) as G.
        assert (Gv : gives H t (OpenProof pid) (exec H (p_answer t (OpenProof pid)))).
        { apply G; [|apply incl_refl]. intros p [<-|[]]. exists m. exact Im. }
        destruct (exec H (p_answer t (OpenProof pid))) as [b|pf|c]; [destruct Gv| |destruct Gv]. cbn [exec gives] in *.
        destruct (c02_every_message_has_proof H Debug src rng t pid m V E1 Im) as (pf' & c & P1 & P2 & P3 & P4).
        rewrite Gv in P1. injection P1 as <-. split; [exact P4|]. exists src, t, c. split; [|split].
        -- exists rng, Debug. auto.
        -- intros J. apply Nmm. destruct V as (_ & _ & Vs & _). revert Vs Im J. clear. intros Vs Im J.
           pose proof (om_In_get b32_ltb _ _ _ Vs Im) as X. pose proof (om_In_get b32_ltb _ _ _ Vs J) as Y. congruence.
        -- intros md. apply (c90_tight H md pf pid m m').
           ++ pose proof (@convolve_inv H Debug pf pid m c P4 P3) as (Dp & _ & Pp & Ec).
              pose proof (@c03_convolve_total H md pf pid m Dp) as A. cbv zeta in A. rewrite <- (proj1 (pos_spec pid (mp_cofactor pf) (length (mp_path pf)) Dp)) in A.
              rewrite <- Pp, N.eqb_refl in A. rewrite A, Ec. reflexivity.
           ++ assert (Le : forall m, @s_leaf H pid m = @s_leaf (always th) pid m) by (intros; unfold s_leaf, s_pre; do 2 f_equal; unfold HASH; rewrite (E f If : H s_node_tag = th); reflexivity).
              unfold HASH. rewrite !Le. exact Ea.
      * destruct (no_hit g tm (tm ++ ms) (incl_appl _ (incl_refl _)) Nt Eh) as [ND K]. split; [exact ND|split; [intros s _ []|]].
        intros s J J'. rewrite app_nil_r in J'. apply in_map_iff in J as [m' [<- J]], J' as [m [Q J']].
        assert (m = m') by (apply K; [exact J'|apply in_or_app; right; exact J|exact Q]). subst m'.
        clear - Nm J J'. induction tm as [|x tm IH]; [destruct J'|]. cbn [app] in Nm. inversion Nm as [|? ? NI ND]; subst.
        destruct J' as [->|J']; [apply NI, in_or_app; right; exact J|exact (IH ND J')].
Qed.
Lemma c106_numbers : forall n U q pf pid
  (strings : universe n U) (short : 162 <= n) (work : (2 ^ 129 <= N.of_nat q <= 2 ^ 256)%N)
  (valid : valid_proof pf) (depth : length (mp_path pf) <= 31) (place : mp_pos pf = s_pos pid (mp_cofactor pf) (length (mp_path pf))),
  exists adversary : prog (merkle_proof * bytes32 * merkle_proof * bytes32 * bytes32), modest n (q + 1) adversary /\
  rare U (fun H => ~ let '(pf1, m1, pf2, m2, pid) := exec H adversary in
            valid_proof pf1 /\ valid_proof pf2 /\ m1 <> m2 /\
            exists c, forall md, @convolve H md pf1 pid m1 = Ret (Ok c) /\ @convolve H md pf2 pid m2 = Ret (Ok c))
       2 5.
Proof.
  intros n U q pf pid UU Sh [W1 W2] V D Pl. destruct (c106_collide n U q pf pid UU Sh W2 V D Pl) as (A & M & R). exists A. split; [exact M|].
  intros B NB HB. specialize (R B NB HB). set (T := (2 ^ (256 * N.of_nat (length U)))%N) in *. set (b := N.of_nat (length B)) in *.
  assert (X : (3 * 2 ^ 257 - 2 ^ 129 <= 2 ^ 257 + N.of_nat q * N.of_nat (q - 1))%N).
  { rewrite Nat2N.inj_sub. change (N.of_nat 1) with 1%N. set (Q := N.of_nat q) in *. clearbody Q.
    apply N.le_trans with (2 ^ 257 + 2 ^ 129 * (2 ^ 129 - 1))%N; [vm_compute; discriminate|]. apply N.add_le_mono_l, N.mul_le_mono; lia. }
  assert (Y : (b * (3 * 2 ^ 257 - 2 ^ 129) <= 2 ^ 257 * T)%N) by (eapply N.le_trans; [apply N.mul_le_mono_l, X|exact R]).
  assert (Z : (2 ^ 257 * (b * 5) <= 2 ^ 257 * (2 * T))%N).
  { apply N.le_trans with (2 * (b * (3 * 2 ^ 257 - 2 ^ 129)))%N; [|lia].
    replace (2 ^ 257 * (b * 5))%N with (b * (5 * 2 ^ 257))%N by lia.
    replace (2 * (b * (3 * 2 ^ 257 - 2 ^ 129)))%N with (b * (2 * (3 * 2 ^ 257 - 2 ^ 129)))%N by lia.
    apply N.mul_le_mono_l. vm_compute. discriminate. }
  apply N.mul_le_mono_pos_l in Z; [exact Z|reflexivity].
Qed.
