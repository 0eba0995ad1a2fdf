(** C119: a concealed message is as hard to find as to guess. *)
From Verif Require Import Base BaseFacts OrdMap OrdMapFacts Strict Merkle MpcAtoms MpcTree MpcBlock.
From Verif Require Import SpecHash SpecTree SpecMerkle SpecFull SpecLocal SpecValid SpecFind SpecBlock SpecCommit SpecCount SpecGame SpecHideGame SpecViewGame SpecBlockGame SpecTalk SpecMany SpecSeek.
From Verif Require Import HashFacts TreeFacts MerkleProofs MpcTreeProofs ConcealProofs LocalProofs DerivedProofs CountProofs GameProofs GameHideProofs GameViewProofs HideProofs.
From Verif Require Import TheoremsMpc TheoremsMore TheoremsBlock TheoremsLocal TheoremsHide TheoremsCount TheoremsFind TheoremsGame TheoremsTalk TheoremsMany.
From Verif Require TheoremsExtend.
From Verif Require Import SpecGame.
Local Open Scope nat_scope.

(** ** The tree with another message *)
Definition sw (p m : bytes32) (e : bytes32 * bytes32) : bytes32 * bytes32 := if b32_eqb (fst e) p then (fst e, m) else e.
Definition swm (p m : bytes32) (M : ordered_map) : ordered_map := map (fun e => (fst e, sw p m (snd e))) M.
Definition retell (p m : bytes32) (t : merkle_tree) : merkle_tree :=
  MTree (mt_method t) (mt_depth t) (mt_entropy t) (mt_cofactor t) (map (sw p m) (mt_messages t)) (swm p m (mt_map t)).
Lemma sw_fst p m e : fst (sw p m e) = fst e.
Proof. unfold sw. destruct (b32_eqb _ _); reflexivity. Qed.
Lemma swm_insert p m k v M : om_insert N.ltb k (sw p m v) (swm p m M) =
  (option_map (sw p m) (fst (om_insert N.ltb k v M)), swm p m (snd (om_insert N.ltb k v M))).
Proof.
  induction M as [|[k' v'] M IH]; [reflexivity|]. cbn [swm map om_insert fst snd]. destruct (k <? k')%N; [reflexivity|].
  destruct (k' <? k)%N; [|reflexivity]. fold (swm p m M). rewrite IH. destruct (om_insert N.ltb k v M) as [o r]. reflexivity.
Qed.
Lemma swm_get p m k M : om_get N.ltb k (swm p m M) = option_map (sw p m) (om_get N.ltb k M).
Proof.
  induction M as [|[k' v'] M IH]; [reflexivity|]. cbn [swm map om_get fst snd]. destruct (k <? k')%N; [reflexivity|].
  destruct (k' <? k)%N; [exact IH|reflexivity].
Qed.
Lemma sw_place p m c d l : forall M, MpcTree.place (map (sw p m) l) c d (swm p m M) = option_map (swm p m) (MpcTree.place l c d M).
Proof.
  induction l as [|[p' m'] l IH]; intros M; [reflexivity|]. cbn [map MpcTree.place].
  destruct (sw p m (p', m')) as [p1 m1] eqn:E. pose proof (sw_fst p m (p', m')) as F. rewrite E in F. cbn in F. subst p1.
  rewrite <- E, swm_insert. destruct (om_insert N.ltb _ (p', m') M) as [[o|] r]; [reflexivity|]. apply IH.
Qed.
Lemma sw_cofactors p m d l cs : try_cofactors cs (map (sw p m) l) d = option_map (fun x => (fst x, swm p m (snd x))) (try_cofactors cs l d).
Proof.
  induction cs as [|c cs IH]; [reflexivity|]. cbn [try_cofactors]. change (@nil (N * (bytes32 * bytes32))) with (swm p m []) at 1. rewrite sw_place.
  destruct (MpcTree.place l c d []); [reflexivity|exact IH].
Qed.
Lemma sw_loop p m l fuel : forall d w x, commit_loop fuel l d w = Ret (Ok x) ->
  commit_loop fuel (map (sw p m) l) d w = Ret (Ok (fst x, swm p m (snd x))).
Proof.
  induction fuel as [|fuel IH]; intros d w x E; [discriminate|]. cbn [commit_loop] in *. rewrite map_length, sw_cofactors.
  destruct (N.of_nat (length l) <=? width_of d)%N.
  - destruct (try_cofactors _ l d) as [[c M]|]; cbn [option_map fst snd]; [injection E as <-; reflexivity|].
    destruct (u5_checked_add d 1); [apply IH, E|discriminate].
  - destruct (u5_checked_add d 1); [apply IH, E|discriminate].
Qed.
Lemma retold_commit p m src e t : try_commit src (Some e) = Ret (Ok t) -> try_commit (retold p m src) (Some e) = Ret (Ok (retell p m t)).
Proof.
  unfold try_commit. cbn [retold ms_messages ms_min_depth ms_static_entropy ms_method]. fold (sw p m). rewrite map_length.
  destruct ((ms_min_depth src =? 0) && _)%bool; [discriminate|]. destruct (2 ^ 31 <? _)%N; [discriminate|].
  assert (K : forall y, (r <- commit_loop 32 (ms_messages src) (ms_min_depth src) 1 ;;
      match r with Err e0 => Ret (Err e0) | Ok (depth, cofactor, map) => Ret (Ok (MTree (ms_method src) depth y cofactor (ms_messages src) map)) end) = Ret (Ok t) ->
    (r <- commit_loop 32 (map (sw p m) (ms_messages src)) (ms_min_depth src) 1 ;;
      match r with Err e0 => Ret (Err e0) | Ok (depth, cofactor, map) => Ret (Ok (MTree (ms_method src) depth y cofactor (List.map (sw p m) (ms_messages src)) map)) end) = Ret (Ok (retell p m t))).
  { intros y. destruct (commit_loop 32 (ms_messages src) (ms_min_depth src) 1) as [[[[d c] M]|?]|?] eqn:E; cbn [bind]; try discriminate.
    rewrite (sw_loop p m _ _ _ _ _ E). cbn [bind fst snd]. intros X. injection X as <-. reflexivity. }
  destruct (ms_static_entropy src); apply K.
Qed.
Lemma retold_valid p m src : valid_source src -> valid_source (retold p m src).
Proof.
  intros (A & B & C & D). unfold valid_source. cbn [retold ms_messages ms_min_depth ms_static_entropy]. rewrite map_length.
  split; [exact A|split; [exact B|split; [|exact D]]]. revert C. clear. fold (sw p m).
  induction (ms_messages src) as [|[k v] l IH]; [reflexivity|]. cbn [map om_sorted].
  destruct (sw p m (k, v)) as [k1 v1] eqn:E. pose proof (sw_fst p m (k, v)) as F. rewrite E in F. cbn in F. subst k1.
  destruct l as [|[k' v'] l]; [reflexivity|]. cbn [map] in *. destruct (sw p m (k', v')) as [k2 v2] eqn:E2. pose proof (sw_fst p m (k', v')) as F.
  rewrite E2 in F. cbn in F. subst k2. intros C. apply andb_true_iff in C as [C1 C2]. apply andb_true_iff. split; [exact C1|apply IH, C2].
Qed.
Lemma retold_own p m src x y : In (x, y) (ms_messages src) -> exists z, In (x, z) (ms_messages (retold p m src)).
Proof.
  intros I. cbn [retold ms_messages]. fold (sw p m). apply (in_map (sw p m)) in I. pose proof (sw_fst p m (x, y)) as F.
  destruct (sw p m (x, y)) as [x' z]. cbn in F. subst x'. exists z. exact I.
Qed.
Lemma retold_each p m srcs es ts : commit_each srcs es ts -> commit_each (map (retold p m) srcs) es (map (retell p m) ts).
Proof. induction 1; cbn [map]; constructor; [assumption|apply retold_commit; assumption|assumption]. Qed.
Lemma each_one srcs es ts : commit_each srcs es ts -> forall ts', commit_each srcs es ts' -> ts' = ts.
Proof. induction 1 as [|src e t srcs es ts L E C IH]; intros ts' X; inversion X; subst; [reflexivity|]. f_equal; [congruence|apply IH; assumption]. Qed.
Lemma each_nth srcs es ts : commit_each srcs es ts -> forall i src, nth_error srcs i = Some src ->
  exists e t, nth_error ts i = Some t /\ try_commit src (Some e) = Ret (Ok t).
Proof.
  induction 1 as [|src e t srcs es ts L E C IH]; intros [|i] src' X; cbn in *; try discriminate; [|apply IH, X].
  injection X as <-. exists e, t. auto.
Qed.

(** ** Answering without the message, from the hash of its leaf *)
Fixpoint p_cover (th : bytes32) (t : merkle_tree) (p c : bytes32) (k : nat) (o : N) : prog ptree :=
  match k with
  | O => match om_get N.ltb o (mt_map t) with
         | Some (p', m') => if b32_eqb p' p then Done (PConc c) else Done (PLeaf p' m')
         | None => Ask (@s_entropy (always th) (mt_entropy t) o) (fun h => Done (PConc h))
         end
  | S k' => andthen (p_cover th t p c k' o) (fun l => andthen (p_cover th t p c k' (o + 2 ^ N.of_nat k')%N) (fun r => Done (PBr l r)))
  end.
Definition but (p x : bytes32) : bool := negb (b32_eqb x p).
Lemma p_cover_exec H t p m k : forall o,
  exec H (p_cover (H s_node_tag) t p (H (@s_leaf H p m)) k o) = @pkeep H (but p) (full_tree k o (@slot H (retell p m t))).
Proof.
  induction k as [|k IH]; intros o; cbn [p_cover full_tree pkeep].
  - unfold slot. cbn [retell mt_map mt_entropy]. rewrite swm_get. destruct (om_get _ _ _) as [[p' m']|]; cbn [option_map]; [|reflexivity].
    unfold sw, but. cbn [fst]. destruct (b32_eqb p' p) eqn:E; cbn [exec pkeep].
    + rewrite E. apply b32_eqb_eq in E. subst p'. reflexivity.
    + rewrite E. reflexivity.
  - rewrite !exec_andthen, !IH. reflexivity.
Qed.
Lemma pkeep_restrict {H : Hasher} f g W t : (forall x, f x = true -> g x = true) -> forall d, prestrict f W d (pkeep g t) = prestrict f W d t.
Proof.
  intros I. induction t as [h|p m|l IHl r IHr]; intros d; [reflexivity| |].
  - cbn [pkeep]. destruct (g p) eqn:G; [reflexivity|]. cbn [prestrict]. destruct (f p) eqn:F; [apply I in F; congruence|reflexivity].
  - cbn [pkeep prestrict pleaves]. rewrite IHl, IHr. cbn [phash]. rewrite !pkeep_phash, !pkeep_leaves, <- filter_app.
    replace (existsb (fun e => f (fst e)) (filter (fun e => g (fst e)) (pleaves l ++ pleaves r))) with (existsb (fun e => f (fst e)) (pleaves l ++ pleaves r)); [reflexivity|].
    induction (pleaves l ++ pleaves r) as [|e x IH]; [reflexivity|]. cbn [filter existsb]. destruct (g (fst e)) eqn:G; cbn [existsb]; rewrite IH; [reflexivity|].
    destruct (f (fst e)) eqn:F; [apply I in F; congruence|reflexivity].
Qed.
Lemma pkeep_aside H g W k : forall d o t pos, exec H (p_aside (H s_node_tag) W d k o (@pkeep H g t) pos) = exec H (p_aside (H s_node_tag) W d k o t pos).
Proof.
  induction k as [|k IH]; intros d o t pos; [reflexivity|]. destruct t as [h|p m|l r]; cbn [pkeep p_aside]; [reflexivity| |].
  - destruct (g p); reflexivity.
  - destruct (_ <=? pos)%N; rewrite !exec_andthen, !p_hash_exec, ?exec_andthen, IH, pkeep_phash; reflexivity.
Qed.
Lemma pkeep_open H g mt D c T o : (forall x, In x (names o) -> g x = true) ->
  exec H (p_open (H s_node_tag) mt D c (@pkeep H g T) o) = exec H (p_open (H s_node_tag) mt D c T o).
Proof.
  intros I. destruct o as [ids|pid|]; cbn [p_open names] in *; rewrite !exec_andthen.
  - rewrite !p_restrict_exec, pkeep_restrict; [reflexivity|]. intros x X. apply I, mem_In, X.
  - rewrite pkeep_aside. reflexivity.
  - rewrite !p_hash_exec, pkeep_phash. reflexivity.
Qed.
Definition p_veil (t : merkle_tree) (p c : bytes32) (o : opening) : prog opened :=
  Ask s_node_tag (fun th => andthen (p_cover th t p c (mt_depth t) 0) (fun T => p_open th (mt_method t) (mt_depth t) (mt_cofactor t) T o)).
Lemma p_veil_exec H t p m o : (forall x, In x (names o) -> x <> p) ->
  exec H (p_veil t p (H (@s_leaf H p m)) o) = exec H (p_answer (retell p m t) o).
Proof.
  intros I. unfold p_veil, p_answer. cbn [exec]. rewrite !exec_andthen, p_cover_exec, p_slots_exec. cbn [retell mt_depth mt_method mt_cofactor].
  apply pkeep_open. intros x X. unfold but. rewrite (proj2 (b32_eqb_neq x p) (I x X)). reflexivity.
Qed.
Fixpoint p_seek {A} (d : A) (ts : list merkle_tree) (p c : bytes32) (B : seek A) : prog A :=
  match B with
  | SeekEnd a => Done a
  | SeekHash s k => Ask s (fun h => p_seek d ts p c (k h))
  | SeekOpen i o k => match nth_error ts i with Some t => andthen (p_veil t p c o) (fun x => p_seek d ts p c (k x)) | None => Done d end
  end.
Lemma p_seek_exec {A} H (d : A) srcs es ts p m : Forall valid_source srcs -> commit_each srcs es ts -> forall B q, tactful srcs p q B ->
  forall a, sought H (map (retell p m) ts) B a <-> exec H (p_seek d ts p (H (@s_leaf H p m)) B) = a.
Proof.
  intros V C. induction B as [b|s k IH|i o k IH]; intros q T a; cbn [p_seek exec]; cbn [tactful] in T.
  - split; [intros X; inversion X; reflexivity|intros <-; constructor].
  - destruct q as [|q]; [destruct T|]. rewrite <- (IH _ q (T _)).
    split; [intros X; inversion X; assumption|intros X; constructor; exact X].
  - destruct T as [(src & Ns & I) T]. destruct (each_nth _ _ _ C _ _ Ns) as (e & t & Nt & E). rewrite Nt, exec_andthen, <- (IH _ q (T _)).
    assert (G : gives H (retell p m t) o (exec H (p_veil t p (H (@s_leaf H p m)) o))).
    { rewrite p_veil_exec by (intros x X; apply (I x X)).
      apply (p_answer_exec H (retold p m src) e (retell p m t) (names o)); [|apply retold_commit, E| |intros x X; exact X].
      - apply retold_valid. eapply (proj1 (Forall_forall _ _)); [exact V|]. eapply nth_error_In, Ns.
      - intros x X. destruct (I x X) as (_ & y & Y). eapply retold_own, Y. }
    assert (Nr : nth_error (map (retell p m) ts) i = Some (retell p m t)) by (apply map_nth_error, Nt).
    split.
    + intros X; inversion X as [| |i' t' o' x k' a' N' G' Y]; subst. rewrite Nr in N'. injection N' as <-. rewrite (gives_one _ _ _ _ _ G G'). exact Y.
    + intros X. econstructor; [exact Nr|exact G|exact X].
Qed.

(** ** Questions which are no leaves of [p] *)
Definition harmless (p : bytes32) (s : list byte) : Prop := forall th m, s <> @s_leaf (always th) p m.
Fixpoint sparing {A} (P : list byte -> Prop) (q : nat) (B : prog A) {struct B} : Prop :=
  match B with
  | Done _ => True
  | Ask s k => (P s /\ forall a, sparing P q (k a)) \/ match q with O => False | S q' => forall a, sparing P q' (k a) end
  end.
Lemma sparing_asked {A} H P (B : prog A) : forall q, sparing P q B -> forall L, NoDup L -> incl L (asked H B) -> (forall s, In s L -> ~ P s) -> length L <= q.
Proof.
  induction B as [a|s k IH]; intros q X L ND I NP.
  - destruct L as [|s L]; [cbn; lia|]. destruct (I s (or_introl eq_refl)).
  - cbn [sparing asked] in *. destruct X as [[Ps X]|X].
    + apply (IH (H s) q (X _) L ND); [|exact NP]. intros x J. destruct (I x J) as [<-|Y]; [|exact Y]. destruct (NP _ J Ps).
    + destruct q as [|q]; [destruct X|]. destruct (in_dec (list_eq_dec Byte.byte_eq_dec) s L) as [J|J].
      * apply in_split in J as (l1 & l2 & ->). pose proof (NoDup_remove_1 _ _ _ ND) as ND1. pose proof (NoDup_remove_2 _ _ _ ND) as ND2.
        rewrite app_length. cbn [length]. rewrite Nat.add_succ_r, <- app_length. apply le_n_S.
        apply (IH (H s) q (X _) _ ND1).
        -- intros x Y. assert (Z : In x (l1 ++ s :: l2)) by (apply in_app_or in Y as [Y|Y]; apply in_or_app; [left|right; right]; exact Y).
           destruct (I x Z) as [<-|W]; [contradiction|exact W].
        -- intros x Y. apply NP. apply in_app_or in Y as [Y|Y]; apply in_or_app; [left|right; right]; exact Y.
      * apply Nat.le_trans with q; [|lia]. apply (IH (H s) q (X _) L ND); [|exact NP]. intros x Y. destruct (I x Y) as [<-|Z]; [contradiction|exact Z].
Qed.
Lemma sparing_mono {A} P (B : prog A) : forall q q', q <= q' -> sparing P q B -> sparing P q' B.
Proof.
  induction B as [a|s k IH]; intros q q' L X; [exact I|]. cbn [sparing] in *. destruct X as [[Ps X]|X].
  - left. split; [exact Ps|]. intros a. eapply IH; [exact L|apply X].
  - right. destruct q as [|q]; [destruct X|]. destruct q' as [|q']; [lia|]. intros a. eapply IH; [|apply X]. lia.
Qed.
Lemma sparing_after {A C} P (Q : A -> Prop) (B : prog A) (k : A -> prog C) q : returns Q B -> sparing P 0 B -> (forall a, Q a -> sparing P q (k a)) -> sparing P q (andthen B k).
Proof.
  induction B as [a|s c IH]; intros R X K; [apply K, R|]. cbn [returns sparing andthen] in *. destruct X as [[Ps X]|[]].
  left. split; [exact Ps|]. intros a. apply IH; [apply R|apply X|exact K].
Qed.
Lemma returns_any {A} (B : prog A) : returns (fun _ => True) B.
Proof. induction B as [a|s k IH]; [exact I|]. intros a. apply IH. Qed.
Lemma sparing_andthen {A C} P (B : prog A) (k : A -> prog C) q : sparing P 0 B -> (forall a, sparing P q (k a)) -> sparing P q (andthen B k).
Proof. intros X K. apply (sparing_after P (fun _ => True)); [apply returns_any|exact X|auto]. Qed.
Lemma harmless_length p s : length s <> 129 -> harmless p s.
Proof. intros L th m ->. apply L. apply (@TheoremsExtend.leaf_length (always th)). Qed.
Lemma harmless_leaf p th p' m' : p' <> p -> harmless p (@s_leaf (always th) p' m').
Proof.
  intros N th' m E. apply N. unfold s_leaf, s_pre in E.
  apply app_inv_length in E as [_ E]; [|rewrite !b32_length; reflexivity].
  apply app_inv_length in E as [_ E]; [|rewrite !b32_length; reflexivity].
  injection E as E. apply app_inv_length in E as [E _]; [|rewrite !b32_length; reflexivity]. apply b32_inj, E.
Qed.
Definition lacks (p : bytes32) (t : ptree) : Prop := forall m, ~ In (p, m) (pleaves t).
Lemma p_cover_lacks th t p c k : forall o, returns (lacks p) (p_cover th t p c k o).
Proof.
  induction k as [|k IH]; intros o; cbn [p_cover].
  - destruct (om_get _ _ _) as [[p' m']|]; [|intros h m []]. destruct (b32_eqb p' p) eqn:E; [intros m []|].
    intros m [X|[]]. injection X as -> _. apply b32_eqb_neq in E. congruence.
  - eapply returns_andthen; [apply IH|]. intros l Fl. eapply returns_andthen; [apply IH|]. intros r Fr m X. cbn [pleaves] in X.
    apply in_app_or in X as [X|X]; [eapply Fl, X|eapply Fr, X].
Qed.
Lemma p_cover_sparing th t p c k : forall o, sparing (harmless p) 0 (p_cover th t p c k o).
Proof.
  induction k as [|k IH]; intros o; cbn [p_cover].
  - destruct (om_get _ _ _) as [[p' m']|]; [destruct (b32_eqb p' p); exact I|]. left. split; [|intros; exact I].
    apply harmless_length. rewrite (@TheoremsExtend.entropy_length (always th)). discriminate.
  - apply sparing_andthen; [apply IH|]. intros l. apply sparing_andthen; [apply IH|intros; exact I].
Qed.
Lemma p_hash_sparing th W p t : lacks p t -> forall d, sparing (harmless p) 0 (p_hash th W d t).
Proof.
  induction t as [h|p' m'|l IHl r IHr]; intros F d; cbn [p_hash]; [exact I| |].
  - left. split; [|intros; exact I]. apply harmless_leaf. intros ->. apply (F m'). left. reflexivity.
  - apply sparing_andthen; [apply IHl; intros m X; apply (F m), in_or_app; left; exact X|]. intros a.
    apply sparing_andthen; [apply IHr; intros m X; apply (F m), in_or_app; right; exact X|]. intros b. left. split; [|intros; exact I].
    apply harmless_length. rewrite (@TheoremsExtend.branch_length (always th)). discriminate.
Qed.
Lemma p_restrict_sparing th g W p t : lacks p t -> forall d, sparing (harmless p) 0 (p_restrict th g W d t).
Proof.
  induction t as [h|p' m'|l IHl r IHr]; intros F d; cbn [p_restrict]; [exact I| |].
  - destruct (g p'); [exact I|]. apply sparing_andthen; [apply p_hash_sparing, F|intros; exact I].
  - destruct (existsb _ _); [|apply sparing_andthen; [apply p_hash_sparing, F|intros; exact I]].
    apply sparing_andthen; [apply IHl; intros m X; apply (F m), in_or_app; left; exact X|]. intros a.
    apply sparing_andthen; [apply IHr; intros m X; apply (F m), in_or_app; right; exact X|]. intros b. exact I.
Qed.
Lemma p_aside_sparing th W p k : forall d o t pos, lacks p t -> sparing (harmless p) 0 (p_aside th W d k o t pos).
Proof.
  induction k as [|k IH]; intros d o t pos F; cbn [p_aside]; [exact I|]. destruct t as [h|p' m'|l r]; [exact I|exact I|].
  assert (Fl : lacks p l) by (intros m X; apply (F m), in_or_app; left; exact X). assert (Fr : lacks p r) by (intros m X; apply (F m), in_or_app; right; exact X).
  destruct (_ <=? pos)%N; (apply sparing_andthen; [apply p_hash_sparing; assumption|]; intros h; apply sparing_andthen; [apply IH; assumption|intros; exact I]).
Qed.
Lemma p_open_sparing th mt D c p t o : lacks p t -> sparing (harmless p) 0 (p_open th mt D c t o).
Proof.
  intros F. destruct o as [ids|pid|]; cbn [p_open].
  - apply sparing_andthen; [apply p_restrict_sparing, F|intros; exact I].
  - apply sparing_andthen; [apply p_aside_sparing, F|intros; exact I].
  - apply sparing_andthen; [apply p_hash_sparing, F|]. intros r. apply sparing_andthen; [|intros; exact I]. unfold p_finish.
    left. split; [apply harmless_length; vm_compute; discriminate|]. intros ct. left. split; [|intros; exact I].
    apply harmless_length. rewrite (@TheoremsExtend.commit_length (always ct)). discriminate.
Qed.
Lemma p_veil_sparing t p c o : sparing (harmless p) 0 (p_veil t p c o).
Proof.
  unfold p_veil. left. split; [apply harmless_length; vm_compute; discriminate|]. intros th.
  eapply sparing_after; [apply p_cover_lacks|apply p_cover_sparing|]. intros T F. apply p_open_sparing, F.
Qed.
Lemma p_seek_sparing {A} (d : A) srcs ts p c : forall B q, tactful srcs p q B -> sparing (harmless p) q (p_seek d ts p c B).
Proof.
  induction B as [b|s k IH|i o k IH]; intros q T; cbn [p_seek]; cbn [tactful] in T; [exact I| |].
  - destruct q as [|q]; [destruct T|]. right. intros a. apply IH, T.
  - destruct T as [_ T]. destruct (nth_error ts i) as [t|]; [|exact I]. apply sparing_andthen; [apply p_veil_sparing|]. intros x. apply IH, T.
Qed.

(** ** Counting *)
Section Count.
Context {A : Type} (n : nat) (U : list (list byte)) (q : nat) (srcs : list multi_source) (es : list N) (ts : list merkle_tree).
Context (p : bytes32) (S : list bytes32) (G : bytes32 -> A -> bool) (B : seek A) (d : A).
Context (UU : universe n U) (Sh : 162 <= n) (V : Forall valid_source srcs) (NS : NoDup S) (C : commit_each srcs es ts) (T : tactful srcs p q B).
Let run (m c : bytes32) : prog bool := andthen (p_seek d ts p c B) (fun a => Done (G m a)).
Let X (m : bytes32) (f : list bytes32) : list byte := @s_leaf (table U f) p m.
Lemma told_run m f : told_about U srcs es p S G B (m, f) <->
  In m S /\ length f = length U /\ exec (table U f) (run m (table U f (X m f))) = true.
Proof.
  unfold told_about, run, X. rewrite exec_andthen. cbn [exec]. split; intros (I & L & Y); (split; [exact I|split; [exact L|]]).
  - destruct Y as (ts' & a & C' & K & Y). rewrite (each_one _ _ _ (retold_each p m _ _ _ C) _ C') in K.
    rewrite (p_seek_exec (table U f) d srcs es ts p m V C B q T) in K. rewrite K. exact Y.
  - exists (map (retell p m) ts). eexists. split; [apply retold_each, C|split; [|exact Y]].
    apply (p_seek_exec (table U f) d srcs es ts p m V C B q T). reflexivity.
Qed.
Context (Fs : list (list bytes32)) (LF : lists_all Fs (fun f => length f = length U)).
Notation sum := GameHideProofs.sum.
Lemma told_counts k : counts (told_about U srcs es p S G B) k -> k = sum (fun m => sum (fun f => yes U (run m) (table U f (X m f)) f) Fs) S.
Proof.
  intros K. rewrite (counts_ind (told_about U srcs es p S G B) (fun mf => exec (table U (snd mf)) (run (fst mf) (table U (snd mf) (X (fst mf) (snd mf))))) (list_prod S Fs) k); [apply sum_prod| | |exact K].
  - apply NoDup_prod; [exact NS|apply LF].
  - intros [m f]. cbn [fst snd]. rewrite told_run, in_prod_iff, (proj2 LF f). tauto.
Qed.
Lemma told_exists : counts (told_about U srcs es p S G B) (sum (fun m => sum (fun f => yes U (run m) (table U f (X m f)) f) Fs) S).
Proof.
  pose proof (counts_exist (told_about U srcs es p S G B) (fun mf => exec (table U (snd mf)) (run (fst mf) (table U (snd mf) (X (fst mf) (snd mf))))) (list_prod S Fs)) as K.
  rewrite sum_prod in K. apply K.
  - apply NoDup_prod; [exact NS|apply LF].
  - intros [m f]. cbn [fst snd]. rewrite told_run, in_prod_iff, (proj2 LF f). tauto.
Qed.
Lemma told_bound g : (forall a, length (filter (fun m => G m a) S) <= g) ->
  (sum (fun m => sum (fun f => yes U (run m) (table U f (X m f)) f) Fs) S <= (N.of_nat q + N.of_nat g) * N.of_nat (length Fs))%N.
Proof.
  intros Hg. destruct all_ids as (Cs & NC & IC & LC).
  assert (P : (0 < N.of_nat (length Cs))%N) by (rewrite LC; reflexivity).
  apply (N.mul_le_mono_pos_r _ _ _ P). rewrite <- sum_mul.
  assert (IX : forall m f, length f = length U -> In (X m f) U).
  { intros m f _. apply UU. unfold X. rewrite (@TheoremsExtend.leaf_length (table U f)). lia. }
  assert (EX : forall m f c, length f = length U -> X m (put U f (X m f) c) = X m f).
  { intros m f c _. unfold X, s_leaf, s_pre.
    assert (Q : @HASH (table U (put U f (@s_leaf (table U f) p m) c)) s_node_tag = @HASH (table U f) s_node_tag).
    { apply put_other. intros E. apply (f_equal (@length byte)) in E. rewrite (@TheoremsExtend.leaf_length (table U f)) in E. vm_compute in E. discriminate E. }
    unfold s_leaf, s_pre in Q. rewrite Q. reflexivity. }
  eapply N.le_trans.
  { apply sum_le. intros m _. apply (proj1 (one_entropy U Fs Cs (run m) (X m) (proj1 UU) LF NC IC (IX m) (EX m))). }
  rewrite sum_add, (sum_swap (fun m f => sum (fun c => yes U (run m) c f) Cs)), (sum_swap (fun m f => sum (fun c => bad U (run m) (X m f) c f) Cs)).
  rewrite <- sum_add.
  eapply N.le_trans; [apply (sum_le _ (fun _ => (N.of_nat q + N.of_nat g) * N.of_nat (length Cs))%N)|rewrite sum_same; lia].
  intros f _. rewrite (sum_swap (fun m c => yes U (run m) c f)), (sum_swap (fun m c => bad U (run m) (X m f) c f)), <- sum_add.
  eapply N.le_trans; [apply (sum_le _ (fun _ => (N.of_nat q + N.of_nat g)%N))|rewrite sum_same; lia].
  intros c _. set (a := exec (table U f) (p_seek d ts p c B)).
  assert (Y : (sum (fun m => yes U (run m) c f) S <= N.of_nat g)%N).
  { unfold yes. rewrite sum_ind. specialize (Hg a).
    rewrite (filter_ext _ (fun m => G m a)); [lia|]. intros m. unfold run. rewrite exec_andthen. reflexivity. }
  assert (Z : (sum (fun m => bad U (run m) (X m f) c f) S <= N.of_nat q)%N).
  { unfold bad. rewrite sum_ind. set (b := fun m : bytes32 => _). rewrite <- (map_length (fun m => X m f)).
    assert (W : length (map (fun m => X m f) (filter b S)) <= q); [|lia].
    apply (sparing_asked (table U f) (harmless p) (p_seek d ts p c B) q (p_seek_sparing d srcs ts p c B q T)).
    - apply NoDup_map_on; [apply NoDup_filter, NS|]. intros m m' _ _ E. unfold X in E. apply (@s_leaf_inj (table U f)) in E. apply E.
    - intros s Is. apply in_map_iff in Is as (m & <- & Im). apply filter_In in Im as [_ Im]. unfold b in Im.
      destruct (in_dec _ _ _) as [J|]; [|discriminate]. unfold run in J. rewrite asked_andthen in J. cbn [asked] in J. rewrite app_nil_r in J. exact J.
    - intros s Is Hs. apply in_map_iff in Is as (m & <- & _). exact (Hs (@HASH (table U f) s_node_tag) m eq_refl). }
  lia.
Qed.
End Count.

Lemma c119_hidden : forall (A : Type) n U q g srcs es ts p S (G : bytes32 -> A -> bool) (B : seek A) k
  (strings : universe n U) (short : 162 <= n) (valid : Forall valid_source srcs) (made : commit_each srcs es ts)
  (candidates : NoDup S) (few : tactful srcs p q B) (guess : forall a, length (filter (fun m => G m a) S) <= g)
  (right : counts (told_about U srcs es p S G B) k),
  (k <= (N.of_nat q + N.of_nat g) * 2 ^ (256 * N.of_nat (length U)))%N.
Proof.
  intros A n U q g srcs es ts p S G B k UU Sh V C NS T Hg K. destruct (c86_all (length U)) as (Fs & LF & CF).
  destruct (N.eq_dec k 0) as [->|Nz]; [lia|].
  assert (D : exists d : A, True).
  { destruct K as ([|[m f] L] & _ & I & <-); [destruct Nz; reflexivity|]. destruct (proj1 (I (m, f)) (or_introl eq_refl)) as (_ & _ & _ & a & _). exists a. exact Logic.I. }
  destruct D as [d _]. rewrite (told_counts U q srcs es ts p S G B d V NS C T Fs LF k K), <- CF.
  apply (told_bound n U q srcs ts p S G B d UU Sh NS T Fs LF g Hg).
Qed.

(** Finding the message itself *)
Lemma one_equal S a : NoDup S -> length (filter (fun m => b32_eqb m a) S) <= 1.
Proof.
  intros ND. apply NoDup_one; [apply NoDup_filter, ND|]. intros x y Ix Iy. apply filter_In in Ix as [_ Ix], Iy as [_ Iy].
  apply b32_eqb_eq in Ix, Iy. congruence.
Qed.
Lemma c119_found : forall n U q srcs es ts p S (B : seek bytes32) k
  (strings : universe n U) (short : 162 <= n) (valid : Forall valid_source srcs) (made : commit_each srcs es ts)
  (candidates : NoDup S) (few : tactful srcs p q B) (right : counts (told_about U srcs es p S b32_eqb B) k),
  (k <= (N.of_nat q + 1) * 2 ^ (256 * N.of_nat (length U)))%N.
Proof.
  intros n U q srcs es ts p S B k UU Sh V C NS T K.
  exact (c119_hidden bytes32 n U q 1 srcs es ts p S b32_eqb B k UU Sh V C NS T (fun a => one_equal S a NS) K).
Qed.
(** Telling a property which half of the candidates have *)
Lemma c119_property : forall n U q srcs es ts p S (P : bytes32 -> bool) (B : seek bool) k
  (strings : universe n U) (short : 162 <= n) (valid : Forall valid_source srcs) (made : commit_each srcs es ts)
  (candidates : NoDup S) (few : tactful srcs p q B)
  (half : length (filter P S) = length (filter (fun m => negb (P m)) S))
  (right : counts (told_about U srcs es p S (fun m b => Bool.eqb (P m) b) B) k),
  (2 * k <= (N.of_nat (length S) + 2 * N.of_nat q) * 2 ^ (256 * N.of_nat (length U)))%N.
Proof.
  intros n U q srcs es ts p S P B k UU Sh V C NS T Hh K. pose proof (length_split P S) as LS.
  assert (Hg : forall b, length (filter (fun m => Bool.eqb (P m) b) S) <= length (filter P S)).
  { intros [|]; [|rewrite Hh]; apply Nat.eq_le_incl; f_equal; apply filter_ext; intros m; destruct (P m); reflexivity. }
  pose proof (c119_hidden bool n U q (length (filter P S)) srcs es ts p S _ B k UU Sh V C NS T Hg K) as X.
  replace (N.of_nat (length S)) with (2 * N.of_nat (length (filter P S)))%N by lia. lia.
Qed.
(** All runs: every adversary gets exactly one answer, whatever the message and the hash function *)
Lemma c119_meaning : forall (A : Type) n U q srcs es ts p S (G : bytes32 -> A -> bool) (B : seek A)
  (strings : universe n U) (valid : Forall valid_source srcs) (made : commit_each srcs es ts)
  (candidates : NoDup S) (few : tactful srcs p q B) (answerable : inhabited A),
  (exists k, counts (told_about U srcs es p S G B) k) /\
  (forall H m, exists ts', commit_each (map (retold p m) srcs) es ts' /\ exists a, forall b, sought H ts' B b <-> b = a) /\
  counts (told_about U srcs es p S (fun _ _ => true) B) (N.of_nat (length S) * 2 ^ (256 * N.of_nat (length U))).
Proof.
  intros A n U q srcs es ts p S G B UU V C NS T [d]. destruct (c86_all (length U)) as (Fs & LF & CF). split; [|split].
  - eexists. exact (told_exists U q srcs es ts p S G B d V NS C T Fs LF).
  - intros H m. exists (map (retell p m) ts). split; [apply retold_each, C|]. eexists. intros b.
    rewrite (p_seek_exec H d srcs es ts p m V C B q T b). split; intros Y; symmetry; exact Y.
  - pose proof (told_exists U q srcs es ts p S (fun _ _ => true) B d V NS C T Fs LF) as K.
    rewrite (sum_ext _ (fun _ => N.of_nat (length Fs))), sum_same, CF in K; [exact K|]. intros m _.
    rewrite (sum_ext _ (fun _ => 1%N)); [rewrite sum_same; lia|]. intros f _. unfold yes. rewrite exec_andthen. reflexivity.
Qed.
(** Among all 2^256 messages, less than 2^128 hashes find the message with chance at most 2^-128. *)
Lemma c119_numbers : forall n U q srcs es ts p S (B : seek bytes32) k all
  (strings : universe n U) (short : 162 <= n) (valid : Forall valid_source srcs) (made : commit_each srcs es ts)
  (candidates : NoDup S) (every : forall m, In m S) (few : tactful srcs p q B) (work : (N.of_nat q < 2 ^ 128)%N)
  (right : counts (told_about U srcs es p S b32_eqb B) k) (total : counts (told_about U srcs es p S (fun _ _ => true) B) all),
  (k * 2 ^ 128 <= all)%N.
Proof.
  intros n U q srcs es ts p S B k all UU Sh V C NS ES T W K CT.
  pose proof (c119_found n U q srcs es ts p S B k UU Sh V C NS T K) as X.
  destruct (c119_meaning bytes32 n U q srcs es ts p S b32_eqb B UU V C NS T (inhabits p)) as (_ & _ & M).
  assert (LS : N.of_nat (length S) = (2 ^ 256)%N).
  { destruct all_ids as (Cs & NC & IC & <-). f_equal. apply Nat.le_antisymm; apply NoDup_incl_length; try assumption; intros x _; [apply IC|apply ES]. }
  assert (Q : all = (2 ^ 256 * 2 ^ (256 * N.of_nat (length U)))%N).
  { rewrite <- LS. destruct CT as (La & NLa & ILa & <-), M as (Lb & NLb & ILb & <-). f_equal. apply Nat.le_antisymm; apply NoDup_incl_length; try assumption;
      intros x I; [apply ILb, ILa, I|apply ILa, ILb, I]. }
  rewrite Q. set (P := (2 ^ (256 * N.of_nat (length U)))%N) in *. clearbody P. clear - X W.
  assert (Y : (k <= 2 ^ 128 * P)%N). { eapply N.le_trans; [exact X|]. apply N.mul_le_mono_r. lia. }
  change (2 ^ 256)%N with (2 ^ 128 * 2 ^ 128)%N. lia.
Qed.

(** ** The bound is met up to one hash: a proof shows the hash of the leaf beside. *)
Fixpoint winnow (th p h : bytes32) (L : list bytes32) : seek bytes32 :=
  match L with
  | [] => SeekEnd p
  | m :: L' => match L' with
               | [] => SeekEnd m
               | _ => SeekHash (@s_leaf (always th) p m) (fun a => if b32_eqb a h then SeekEnd m else winnow th p h L')
               end
  end.
Definition sift (p x : bytes32) (L : list bytes32) : seek bytes32 :=
  SeekHash s_node_tag (fun th => SeekOpen 0 (OpenProof x) (fun y =>
    match y with GivenProof pf => winnow th p (last (mp_path pf) p) L | _ => SeekEnd p end)).
Lemma winnow_tactful srcs th p h L : forall q, length L <= S q -> tactful srcs p q (winnow th p h L).
Proof.
  induction L as [|m [|m' L] IH]; intros q E; [exact I|exact I|]. change (length (m :: m' :: L)) with (S (length (m' :: L))) in E.
  destruct q as [|q]; [cbn in E; lia|]. cbn [winnow tactful]. intros a. destruct (b32_eqb a h); [exact I|]. apply (IH q). lia.
Qed.
Lemma winnow_found H ts p m L : In m L -> (forall m', In m' L -> H (@s_leaf H p m') = H (@s_leaf H p m) -> m' = m) ->
  sought H ts (winnow (H s_node_tag) p (H (@s_leaf H p m)) L) m.
Proof.
  induction L as [|m1 [|m2 L] IH]; intros I D; [destruct I|destruct I as [<-|[]]; constructor|].
  cbn [winnow]. constructor. change (@s_leaf (always (H s_node_tag)) p m1) with (@s_leaf H p m1).
  destruct (b32_eqb _ _) eqn:E.
  - apply b32_eqb_eq in E. rewrite (D m1 (or_introl eq_refl) E). constructor.
  - apply IH.
    + destruct I as [->|I]; [|exact I]. apply b32_eqb_neq in E. congruence.
    + intros m' I'. apply D. right. exact I'.
Qed.
Lemma aside_last {H : Hasher} W f j b z : (b <= 1)%N -> forall k d a, (a * 2 ^ N.of_nat (S k) <= 2 * j + b < a * 2 ^ N.of_nat (S k) + 2 ^ N.of_nat (S k))%N ->
  last (aside W d (S k) (a * 2 ^ N.of_nat (S k)) f (2 * j + b)) z = phash W (d + S k) (f (2 * j + (1 - b))%N).
Proof.
  intros Hb. induction k as [|k IH]; intros d a R.
  - change (2 ^ N.of_nat 1)%N with 2%N in *. cbn [aside full_tree]. change (2 ^ N.of_nat 0)%N with 1%N. rewrite Nat.add_1_r.
    destruct (N.leb_spec (a * 2 + 1) (2 * j + b))%N; cbn [last]; do 2 f_equal; lia.
  - remember (S k) as k1 eqn:Ek. cbn [aside]. rewrite Nat2N.inj_succ, N.pow_succ_r' in *.
    assert (E : (2 ^ N.of_nat k1 = 2 * 2 ^ N.of_nat k)%N) by (subst k1; rewrite Nat2N.inj_succ, N.pow_succ_r'; reflexivity).
    assert (L : forall d o pos, aside W d k1 o f pos <> []) by (subst k1; intros d' o pos; cbn [aside]; destruct (_ <=? pos)%N; discriminate).
    assert (Lc : forall (y : bytes32) l, l <> [] -> last (y :: l) z = last l z) by (intros y [|y' l]; [congruence|reflexivity]).
    destruct (N.leb_spec (a * (2 * 2 ^ N.of_nat k1) + 2 ^ N.of_nat k1) (2 * j + b))%N as [Q|Q]; rewrite Lc by apply L; rewrite <- Nat.add_succ_comm.
    + replace (a * (2 * 2 ^ N.of_nat k1) + 2 ^ N.of_nat k1)%N with ((2 * a + 1) * 2 ^ N.of_nat k1)%N in * by lia. apply IH. lia.
    + replace (a * (2 * 2 ^ N.of_nat k1))%N with (2 * a * 2 ^ N.of_nat k1)%N in * by lia. apply IH. lia.
Qed.
Lemma beside_shows {H : Hasher} src e t p m x : valid_source src -> try_commit src (Some e) = Ret (Ok t) ->
  In (p, m) (ms_messages src) -> (exists y, In (x, y) (ms_messages src)) -> side_by_side t p x ->
  exists pf, gives H t (OpenProof x) (GivenProof pf) /\ last (mp_path pf) p = HASH (s_leaf p m).
Proof.
  intros V E Ip (y & Ix) (j & Q). pose proof (try_commit_good _ _ _ V E) as G. cbv zeta in Q.
  pose proof (messages_kept src _ _ V E) as MK. pose proof Ip as Ip'. pose proof Ix as Ix'. rewrite <- MK in Ip', Ix'.
  pose proof (pos_cell _ _ _ G Ip') as Cp. eexists. split; [apply (@tree_proof_is H Debug src (Some e) t x y V E Ix)|]. cbn [mp_path].
  assert (Bp : (s_pos p (mt_cofactor t) (mt_depth t) < 2 ^ N.of_nat (mt_depth t))%N) by (apply pos_spec, (gt_depth _ G)).
  assert (Bx : (s_pos x (mt_cofactor t) (mt_depth t) < 2 ^ N.of_nat (mt_depth t))%N) by (apply pos_spec, (gt_depth _ G)).
  unfold tree_aside. unfold tcells in Cp.
  destruct (mt_depth t) as [|D] eqn:QD.
  { change (2 ^ N.of_nat 0)%N with 1%N in *. lia. }
  set (px := s_pos x _ _) in *. set (pp := s_pos p _ _) in *.
  assert (K : forall b, (b <= 1)%N -> px = (2 * j + b)%N -> pp = (2 * j + (1 - b))%N ->
    last (aside (2 ^ N.of_nat (S D)) 0 (S D) 0 (slot t) px) p = HASH (s_leaf p m)).
  { intros b Hb Ex Ep. rewrite Ex. pose proof (aside_last (2 ^ N.of_nat (S D)) (slot t) j b p Hb D 0 0%N) as Y. rewrite N.mul_0_l in Y.
    rewrite Y by lia. rewrite <- Ep. unfold slot. rewrite Cp. reflexivity. }
  destruct Q as [[Q1 Q2]|[Q1 Q2]]; [apply (K 1%N)|apply (K 0%N)]; lia.
Qed.
Fixpoint p_list (th p : bytes32) (L : list bytes32) : prog unit :=
  match L with [] => Done tt | m :: L' => Ask (@s_leaf (always th) p m) (fun _ => p_list th p L') end.
Lemma p_list_modest n th p L : 162 <= n -> modest n (length L) (p_list th p L).
Proof.
  intros N. induction L as [|m L IH]; [exact I|]. cbn [length p_list modest]. split; [|intros; exact IH].
  rewrite (@TheoremsExtend.leaf_length (always th)). lia.
Qed.
Lemma p_list_asked H p L m : In m L -> In (@s_leaf H p m) (asked H (p_list (H s_node_tag) p L)).
Proof. induction L as [|m' L IH]; [intros []|]. intros [->|I]; cbn [p_list asked]; [left; reflexivity|right; apply IH, I]. Qed.
Lemma side_retell p m t x : side_by_side t p x -> side_by_side (retell p m t) p x.
Proof. intros S. exact S. Qed.
Lemma c119_sharp : forall n U q src e t p m x L
  (strings : universe n U) (short : 162 <= n) (valid : valid_source src) (entropy : (e < 2 ^ 64)%N) (made : try_commit src (Some e) = Ret (Ok t))
  (theirs : In (p, m) (ms_messages src)) (shown : exists y, In (x, y) (ms_messages src)) (beside : side_by_side t p x)
  (tried : NoDup L) (count : length L = S q),
  exists B, tactful [src] p (S q) B /\
    forall S k, incl L S -> counts (told_about U [src] [e] p S b32_eqb B) k ->
      ((N.of_nat q + 1) * 2 ^ (256 * N.of_nat (length U)) * 2 ^ 257 <=
       k * 2 ^ 257 + (N.of_nat q + 1) ^ 2 * (N.of_nat q + 2) * 2 ^ (256 * N.of_nat (length U)))%N.
Proof.
  intros n U q src e t p m0 x L UU Sh V Le E Ip Ix SB ND Ln. exists (sift p x L).
  assert (Nx : x <> p).
  { intros ->. destruct SB as (j & Q). cbv zeta in Q. lia. }
  split.
  { cbn [sift tactful]. intros th. split.
    - exists src. split; [reflexivity|]. intros y [<-|[]]. split; [exact Nx|exact Ix].
    - intros [b|pf|c]; [exact I| |exact I]. apply winnow_tactful. lia. }
  intros S k IL (R & NR & IR & <-). destruct (c86_all (length U)) as (Fs & LF & CF).
  set (bad_f := fun f => existsb (fun m => existsb (fun m' => negb (b32_eqb m m') && b32_eqb (table U f (@s_leaf (table U f) p m)) (table U f (@s_leaf (table U f) p m')))%bool L) L).
  assert (Good : incl (list_prod L (filter (fun f => negb (bad_f f)) Fs)) R).
  { intros [m f] I. apply in_prod_iff in I as [Im If]. apply filter_In in If as [If Bf]. apply IR. split; [apply IL, Im|split; [apply (proj2 LF), If|]].
    exists [retell p m t], m. set (HH := table U f).
    pose proof (retold_commit p m src e t E) as E'. split; [constructor; [exact Le|exact E'|constructor]|]. split; [|apply b32_eqb_eq; reflexivity].
    assert (Ip' : In (p, m) (ms_messages (retold p m src))).
    { cbn [retold ms_messages]. fold (sw p m). apply (in_map (sw p m)) in Ip. unfold sw at 1 in Ip. cbn [fst] in Ip.
      rewrite (proj2 (b32_eqb_eq p p) eq_refl) in Ip. exact Ip. }
    destruct Ix as (y & Ix). destruct (@beside_shows HH (retold p m src) e (retell p m t) p m x (retold_valid p m src V) E' Ip' (retold_own p m src x y Ix) SB) as (pf & Gv & Lt).
    constructor. apply (sought_open HH [retell p m t] 0 (retell p m t) (OpenProof x) (GivenProof pf)); [reflexivity|exact Gv|].
    rewrite Lt. apply winnow_found; [exact Im|]. intros m' Im' Em. apply negb_true_iff in Bf.
    destruct (b32_eq_dec m' m) as [|Nm]; [assumption|exfalso]. revert Bf. apply Bool.not_false_iff_true. apply existsb_exists. exists m. split; [exact Im|].
    apply existsb_exists. exists m'. split; [exact Im'|]. apply andb_true_iff. split; [apply negb_true_iff, b32_eqb_neq; congruence|].
    apply b32_eqb_eq. symmetry. exact Em. }
  assert (Bd : (N.of_nat (length (filter bad_f Fs)) * 2 ^ 257 <= (N.of_nat q + 2) * (N.of_nat q + 1) * 2 ^ (256 * N.of_nat (length U)))%N).
  { pose proof (c92_birthday n U unit (Ask s_node_tag (fun th => p_list th p L)) (Datatypes.S (length L)) UU) as Rare.
    assert (M : modest n (Datatypes.S (length L)) (Ask s_node_tag (fun th => p_list th p L))).
    { split; [eapply Nat.le_trans; [apply tag_length|exact Sh]|]. intros th. apply p_list_modest, Sh. }
    specialize (Rare M (filter bad_f Fs) (NoDup_filter _ (proj1 LF))). rewrite Ln in Rare.
    replace (N.of_nat (Datatypes.S (Datatypes.S q)) * N.of_nat (Datatypes.S (Datatypes.S q) - 1))%N with ((N.of_nat q + 2) * (N.of_nat q + 1))%N in Rare
      by (replace (Datatypes.S (Datatypes.S q) - 1) with (Datatypes.S q) by lia; f_equal; lia).
    apply Rare. intros f If. apply filter_In in If as [If Bf]. split; [apply (proj2 LF), If|].
    apply existsb_exists in Bf as (m & Im & Bf). apply existsb_exists in Bf as (m' & Im' & Bf). apply andb_true_iff in Bf as [N1 N2].
    apply negb_true_iff, b32_eqb_neq in N1. apply b32_eqb_eq in N2.
    exists (@s_leaf (table U f) p m), (@s_leaf (table U f) p m'). cbn [asked]. split; [right; apply p_list_asked, Im|split; [right; apply p_list_asked, Im'|]].
    split; [|exact N2]. intros Q. apply (@s_leaf_inj (table U f)) in Q as [_ Q]. contradiction. }
  apply NoDup_incl_length in Good; [|apply NoDup_prod; [exact ND|apply NoDup_filter, (proj1 LF)]]. rewrite prod_length, Ln in Good.
  pose proof (length_split bad_f Fs) as LS. rewrite <- CF in *.
  assert (G1 : ((N.of_nat q + 1) * N.of_nat (length (filter (fun f => negb (bad_f f)) Fs)) <= N.of_nat (length R))%N) by nia.
  assert (G2 : N.of_nat (length Fs) = (N.of_nat (length (filter bad_f Fs)) + N.of_nat (length (filter (fun f => negb (bad_f f)) Fs)))%N) by lia.
  generalize dependent (N.of_nat (length R)). generalize dependent (N.of_nat (length (filter bad_f Fs))).
  generalize (N.of_nat (length (filter (fun f => negb (bad_f f)) Fs))). generalize (N.of_nat (length Fs)). generalize (N.of_nat q). generalize (2 ^ 257)%N. clear.
  intros P Q T g b B E r G. subst T. nia.
Qed.
