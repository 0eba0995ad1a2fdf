(** C92: adversaries asking a bounded number of hashes. *)
From Verif Require Import Base BaseFacts OrdMap Strict Merkle MpcAtoms MpcTree MpcBlock.
From Verif Require Import SpecHash SpecTree SpecMerkle SpecFull SpecValid SpecFind SpecBlock SpecCommit SpecCount SpecGame.
From Verif Require Import MerkleProofs MpcTreeProofs CountProofs GameProofs TheoremsMpc TheoremsBlock TheoremsMerkle TheoremsQuery TheoremsExt TheoremsCount TheoremsFind PathProofs.
Local Open Scope nat_scope.

(** ** Composition *)
Fixpoint andthen {A B} (p : prog A) (k : A -> prog B) : prog B :=
  match p with Done a => k a | Ask s c => Ask s (fun h => andthen (c h) k) end.
Lemma exec_andthen {A B} H (p : prog A) (k : A -> prog B) : exec H (andthen p k) = exec H (k (exec H p)).
Proof. induction p as [a|s c IH]; [reflexivity|]. cbn. apply IH. Qed.
Lemma asked_andthen {A B} H (p : prog A) (k : A -> prog B) : asked H (andthen p k) = asked H p ++ asked H (k (exec H p)).
Proof. induction p as [a|s c IH]; [reflexivity|]. cbn. now rewrite IH. Qed.
Lemma modest_mono {A} n (p : prog A) : forall q q', q <= q' -> modest n q p -> modest n q' p.
Proof.
  induction p as [a|s c IH]; intros q q' L; [intros; exact I|]. cbn. destruct q; [intros []|]. destruct q'; [lia|].
  intros [Ls M]. split; [exact Ls|]. intros a. eapply IH; [|apply M]. lia.
Qed.
Lemma modest_andthen {A B} n (p : prog A) (k : A -> prog B) : forall q r, modest n q p -> (forall a, modest n r (k a)) ->
  modest n (q + r) (andthen p k).
Proof.
  induction p as [a|s c IH]; intros q r M K.
  - apply (modest_mono n _ r); [lia|apply K].
  - cbn in *. destruct q as [|q]; [destruct M|]. cbn. destruct M as [Ls M]. split; [exact Ls|]. intros a. apply IH; [apply M|exact K].
Qed.

(** ** Computing commitments *)
Definition always (h : bytes32) : Hasher := fun _ => h.
Fixpoint p_hash (th : bytes32) (W : N) (d : nat) (t : ptree) : prog bytes32 :=
  match t with
  | PConc h => Done h
  | PLeaf p m => Ask (@s_leaf (always th) p m) Done
  | PBr l r => andthen (p_hash th W (S d) l) (fun a => andthen (p_hash th W (S d) r) (fun b =>
      Ask (@s_branch (always th) d W a b) Done))
  end.
Definition p_finish (D : nat) (c : N) (r : bytes32) : prog bytes32 :=
  Ask s_commit_tag (fun ct => Ask (@s_commit (always ct) D c r) Done).
Definition p_proof (pf : merkle_proof) (pid msg : bytes32) : prog bytes32 :=
  Ask s_node_tag (fun th =>
    andthen (p_hash th (2 ^ N.of_nat (length (mp_path pf))) 0 (path_tree (mp_path pf) (mp_pos pf) pid msg))
      (p_finish (length (mp_path pf)) (mp_cofactor pf))).

Lemma p_hash_exec H W t : forall d, exec H (p_hash (H s_node_tag) W d t) = @phash H W d t.
Proof.
  induction t as [h|p m|l IHl r IHr]; intros d; cbn [p_hash phash exec]; [reflexivity|reflexivity|].
  rewrite !exec_andthen. cbn [exec]. rewrite IHl, IHr. reflexivity.
Qed.
Lemma p_hash_asked H W t : forall d, incl (@ppre H W d t) (asked H (p_hash (H s_node_tag) W d t)).
Proof.
  induction t as [h|p m|l IHl r IHr]; intros d s; cbn [p_hash ppre asked]; [intros []|intros I; exact I|].
  rewrite !asked_andthen. cbn [asked]. rewrite !p_hash_exec. intros [<-|I].
  - apply in_or_app; right. apply in_or_app; right. left. reflexivity.
  - apply in_app_or in I as [I|I]; apply in_or_app; [left; apply IHl, I|right; apply in_or_app; left; apply IHr, I].
Qed.
Fixpoint p_size (t : ptree) : nat := match t with PConc _ => 0 | PLeaf _ _ => 1 | PBr l r => p_size l + (p_size r + 1) end.
Lemma p_hash_modest th W n t : 162 <= n -> forall d, modest n (p_size t) (p_hash th W d t).
Proof.
  intros N. induction t as [h|p m|l IHl r IHr]; intros d; cbn [p_hash p_size].
  - exact I.
  - cbn. split; [|intros; exact I]. eapply Nat.le_trans; [apply (@leaf_length (always th))|exact N].
  - apply modest_andthen; [apply IHl|]. intros a. apply modest_andthen; [apply IHr|]. intros b. cbn. split; [|intros; exact I].
    eapply Nat.le_trans; [apply (@branch_length (always th))|exact N].
Qed.
Lemma p_finish_modest D c r n : 162 <= n -> modest n 2 (p_finish D c r).
Proof.
  intros N. cbn. split; [eapply Nat.le_trans; [apply tag_length|exact N]|]. intros a. split; [|intros; exact I].
  eapply Nat.le_trans; [apply (@commit_length (always a))|exact N].
Qed.
Lemma path_size path : forall pos p m, p_size (path_tree path pos p m) = length path + 1.
Proof.
  induction path as [|h path IH]; intros pos p m; cbn [path_tree]; [reflexivity|]. destruct (_ <=? pos)%N; cbn [p_size length]; rewrite IH; lia.
Qed.
Lemma p_proof_modest pf pid msg n : 162 <= n -> modest n (length (mp_path pf) + 4) (p_proof pf pid msg).
Proof.
  intros N. replace (length (mp_path pf) + 4) with (S (length (mp_path pf) + 1 + 2)) by lia.
  split; [eapply Nat.le_trans; [apply tag_length|exact N]|]. intros th. apply modest_andthen.
  - rewrite <- (path_size (mp_path pf) (mp_pos pf) pid msg). apply p_hash_modest, N.
  - intros r. apply p_finish_modest, N.
Qed.
Lemma p_proof_asked H pf pid msg : incl (@proof_pre H pf pid msg) (asked H (p_proof pf pid msg)).
Proof.
  intros s. unfold proof_pre, pcommit_pre, p_proof. cbn [asked]. rewrite asked_andthen, p_hash_exec. cbn [p_finish asked app In].
  rewrite !in_app_iff. cbn [In]. intros [<-|[<-|[<-|I]]]; [tauto|tauto|right; right; right; left; reflexivity|].
  right; left. apply p_hash_asked, I.
Qed.

(** The whole tree: [f] gives the string hashed at a position. *)
Fixpoint p_full (th : bytes32) (W : N) (f : N -> list byte) (d k : nat) (o : N) : prog bytes32 :=
  match k with
  | O => Ask (f o) Done
  | S k' => andthen (p_full th W f (S d) k' o) (fun a => andthen (p_full th W f (S d) k' (o + 2 ^ N.of_nat k')%N) (fun b =>
      Ask (@s_branch (always th) d W a b) Done))
  end.
Definition slot_string (th : bytes32) (t : merkle_tree) (pos : N) : list byte :=
  match om_get N.ltb pos (mt_map t) with
  | Some (p, m) => @s_leaf (always th) p m
  | None => @s_entropy (always th) (mt_entropy t) pos
  end.
Definition p_tree (t : merkle_tree) : prog bytes32 :=
  Ask s_node_tag (fun th =>
    andthen (p_full th (2 ^ N.of_nat (mt_depth t)) (slot_string th t) 0 (mt_depth t) 0) (p_finish (mt_depth t) (mt_cofactor t))).

Lemma p_full_exec H W t k : forall d o,
  exec H (p_full (H s_node_tag) W (slot_string (H s_node_tag) t) d k o) = @phash H W d (full_tree k o (@slot H t)).
Proof.
  induction k as [|k IH]; intros d o; cbn [p_full full_tree].
  - unfold slot, slot_string. cbn [exec]. destruct (om_get _ _ _) as [[p m]|]; reflexivity.
  - rewrite !exec_andthen. cbn [exec phash]. rewrite !IH. reflexivity.
Qed.
Lemma p_full_asked H W t k : forall d o s,
  In s (@ppre H W d (full_tree k o (@slot H t))) \/
  (exists i, (o <= i < o + 2 ^ N.of_nat k)%N /\ om_get N.ltb i (mt_map t) = None /\ s = @s_entropy H (mt_entropy t) i) ->
  In s (asked H (p_full (H s_node_tag) W (slot_string (H s_node_tag) t) d k o)).
Proof.
  induction k as [|k IH]; intros d o s; cbn [p_full full_tree].
  - cbn [asked In]. unfold slot, slot_string. intros [I|(i & L & G & ->)].
    + destruct (om_get _ _ _) as [[p m]|]; [|destruct I]. cbn [ppre In] in I. destruct I as [<-|[]]. left. reflexivity.
    + change (2 ^ N.of_nat 0)%N with 1%N in L. assert (i = o) as -> by lia. rewrite G. left. reflexivity.
  - rewrite !asked_andthen, !in_app_iff. cbn [asked In ppre]. rewrite !p_full_exec.
    intros [[<-|I]|(i & L & G & ->)].
    + right; right; left. reflexivity.
    + apply in_app_or in I as [I|I]; [left; apply IH; left; exact I|right; left; apply IH; left; exact I].
    + rewrite Nat2N.inj_succ, N.pow_succ_r' in L.
      destruct (N.ltb_spec i (o + 2 ^ N.of_nat k)%N) as [X|X].
      * left. apply IH. right. exists i. split; [lia|split; [exact G|reflexivity]].
      * right; left. apply IH. right. exists i. split; [lia|split; [exact G|reflexivity]].
Qed.
Lemma slot_string_length th t pos : length (slot_string th t pos) <= 162.
Proof. unfold slot_string. destruct (om_get _ _ _) as [[p m]|]; [apply (@leaf_length (always th))|apply (@entropy_length (always th))]. Qed.
Lemma p_full_modest th W n t k : 162 <= n -> forall d o, modest n (2 * 2 ^ k - 1) (p_full th W (slot_string th t) d k o).
Proof.
  intros N. induction k as [|k IH]; intros d o; cbn [p_full].
  - cbn. split; [|intros; exact I]. eapply Nat.le_trans; [apply slot_string_length|exact N].
  - assert (P : 1 <= 2 ^ k) by (pose proof (Nat.pow_nonzero 2 k); lia).
    replace (2 * 2 ^ S k - 1) with ((2 * 2 ^ k - 1) + ((2 * 2 ^ k - 1) + 1)) by (cbn [Nat.pow]; lia).
    apply modest_andthen; [apply IH|]. intros a. apply modest_andthen; [apply IH|]. intros b. cbn. split; [|intros; exact I].
    eapply Nat.le_trans; [apply (@branch_length (always th))|exact N].
Qed.
Lemma p_tree_modest t n : 162 <= n -> modest n (2 * 2 ^ mt_depth t + 2) (p_tree t).
Proof.
  intros N. assert (P : 1 <= 2 ^ mt_depth t) by (pose proof (Nat.pow_nonzero 2 (mt_depth t)); lia).
  replace (2 * 2 ^ mt_depth t + 2) with (S ((2 * 2 ^ mt_depth t - 1) + 2)) by lia.
  split; [eapply Nat.le_trans; [apply tag_length|exact N]|]. intros th. apply modest_andthen.
  - apply p_full_modest, N.
  - intros r. apply p_finish_modest, N.
Qed.
Lemma p_tree_asked H t : incl (@tree_pre H t) (asked H (p_tree t)).
Proof.
  intros s. unfold tree_pre, pcommit_pre, p_tree, tree_full. cbn [asked]. rewrite asked_andthen, p_full_exec. cbn [p_finish asked In].
  rewrite !in_app_iff. cbn [In]. intros [[[<-|[<-|[<-|[]]]]|I]|I].
  - left. reflexivity.
  - right; right; left. reflexivity.
  - right; right; right; left. reflexivity.
  - right; left. apply p_full_asked. left. exact I.
  - right; left. apply p_full_asked. right. unfold entropy_pre in I. apply in_flat_map in I as [i [Ii I]].
    exists i. unfold N_from in Ii. apply in_map_iff in Ii as [j [<- J]]. apply in_seq in J.
    destruct (om_get N.ltb (0 + N.of_nat j)%N (mt_map t)) eqn:G; [destruct I|]. destruct I as [<-|[]].
    split; [|split; reflexivity]. rewrite N.add_0_l, <- pow_of_nat. destruct J as [_ J]. cbn [Nat.add] in J. set (P := 2 ^ mt_depth t) in *. clearbody P. lia.
Qed.

(** ** Theorems *)
Lemma all_strings n : exists U, universe n U.
Proof.
  pose proof every_byte_NoDup as ND. pose proof every_byte_in as AL.
  exists (flat_map (tuples every_byte) (seq 0 (S n))). split.
  - apply NoDup_flat_map; [apply seq_NoDup|intros k _; apply tuples_NoDup, ND|].
    intros i j l _ _ Ii Ij. apply (tuples_in every_byte i AL) in Ii. apply (tuples_in every_byte j AL) in Ij. congruence.
  - intros l. rewrite in_flat_map. split.
    + intros [k [Ik I]]. apply in_seq in Ik. apply (tuples_in every_byte k AL) in I. lia.
    + intros L. exists (length l). split; [apply in_seq; lia|]. apply (tuples_in every_byte _ AL). reflexivity.
Qed.

Lemma c92_birthday : forall n U A (p : prog A) q (strings : universe n U) (few : modest n q p),
  rare U (fun H => @collision_in H (asked H p)) (N.of_nat q * N.of_nat (q - 1)) (2 ^ 257).
Proof.
  intros n U A p q [NU IU] M B NB HB.
  pose proof (birthday U n (fun s L => proj2 (IU s) L) NU A p q [] U B M (NoDup_nil _)) as X.
  assert (X' : (2 * 2 ^ 256 * N.of_nat (length B) <=
    (N.of_nat q * N.of_nat (q - 1) + 2 * N.of_nat (length (@nil (list byte * bytes32))) * N.of_nat q) * 2 ^ (256 * N.of_nat (length U)))%N).
  { apply X; [intros u Iu; left; exact Iu|exact NB|]. intros f If. destruct (HB f If) as [L C]. split; [exact L|split; [intros s a []|exact C]]. }
  cbn [length] in X'. change (2 * 2 ^ 256)%N with (2 ^ 257)%N in X'. rewrite N.mul_comm.
  eapply N.le_trans; [exact X'|]. apply N.mul_le_mono_r. lia.
Qed.

Lemma rare_game n U {A B} (p : prog A) (chk : A -> prog B) q r (P : Hasher -> Prop) :
  universe n U -> modest n q p -> (forall x, modest n r (chk x)) ->
  (forall H, P H -> @collision_in H (asked H (chk (exec H p)))) ->
  rare U P (N.of_nat (q + r) * N.of_nat (q + r - 1)) (2 ^ 257).
Proof.
  intros UU M K C Bs NB HB. apply (c92_birthday n U B (andthen p chk) (q + r) UU); [apply modest_andthen; assumption|exact NB|].
  intros f If. destruct (HB f If) as [L PF]. split; [exact L|]. destruct (C _ PF) as (x & y & Ix & Iy & N & E).
  exists x, y. rewrite asked_andthen, !in_app_iff. repeat split; auto.
Qed.
Lemma collision_incl {H : Hasher} L L' : incl L L' -> collision_in L -> collision_in L'.
Proof. intros I (x & y & Ix & Iy & N & E). exists x, y. repeat split; auto. Qed.
Lemma both_asked {A B} H (p : prog A) (r : prog B) : incl (asked H p ++ asked H r) (asked H (andthen p (fun _ => r))).
Proof. intros s I. rewrite asked_andthen. exact I. Qed.

(** Proofs longer than 31 are not checked at all. *)
Definition p_check (pf : merkle_proof) (pid msg : bytes32) : prog bytes32 :=
  if length (mp_path pf) <=? 31 then p_proof pf pid msg else Done (b32_fill x00).
Lemma p_check_modest pf pid msg n : 162 <= n -> modest n 35 (p_check pf pid msg).
Proof.
  intros N. unfold p_check. destruct (Nat.leb_spec (length (mp_path pf)) 31); [|exact I].
  apply (modest_mono n _ (length (mp_path pf) + 4)); [lia|]. apply p_proof_modest, N.
Qed.
Lemma p_check_asked H md pf pid msg c : @convolve H md pf pid msg = Ret (Ok c) ->
  incl (@proof_pre H pf pid msg) (asked H (p_check pf pid msg)).
Proof.
  intros E. unfold p_check. destruct (Nat.leb_spec (length (mp_path pf)) 31); [apply p_proof_asked|].
  rewrite convolve_long in E by lia. discriminate.
Qed.

Lemma c92_two_messages : forall n U q (adversary : prog (merkle_proof * bytes32 * merkle_proof * bytes32 * bytes32))
  (strings : universe n U) (short : 162 <= n) (few : modest n q adversary),
  rare U (fun H => let '(pf1, m1, pf2, m2, pid) := exec H adversary in
            valid_proof pf1 /\ valid_proof pf2 /\ (m1 <> m2 \/ pf1 <> pf2) /\
            exists md1 md2 c, @convolve H md1 pf1 pid m1 = Ret (Ok c) /\ @convolve H md2 pf2 pid m2 = Ret (Ok c))
       (N.of_nat (q + 70) * N.of_nat (q + 69)) (2 ^ 257).
Proof.
  intros n U q adv UU N M. replace (q + 69) with (q + 70 - 1) by lia.
  apply (rare_game n U adv (fun '(pf1, m1, pf2, m2, pid) => andthen (p_check pf1 pid m1) (fun _ => p_check pf2 pid m2)) q 70); try assumption.
  - intros [[[[pf1 m1] pf2] m2] pid]. change 70 with (35 + 35). apply modest_andthen; [|intros _]; apply p_check_modest, N.
  - intros H. destruct (exec H adv) as [[[[pf1 m1] pf2] m2] pid]. intros (V1 & V2 & D & md1 & md2 & c & E1 & E2).
    destruct (c60_one_proof H md1 md2 pf1 pf2 pid m1 m2 c V1 V2 E1 E2) as [[X Y]|C]; [tauto|].
    eapply collision_incl; [|exact C]. eapply incl_tran; [|apply both_asked].
    apply incl_app; [apply incl_appl, (p_check_asked H md1 _ _ _ c E1)|apply incl_appr, (p_check_asked H md2 _ _ _ c E2)].
Qed.

(** Trees deeper than [D] are not computed. *)
Definition p_commit (D : nat) (src : multi_source) (rng : option N) : prog bytes32 :=
  match try_commit src rng with
  | Ret (Ok t) => if mt_depth t <=? D then p_tree t else Done (b32_fill x00)
  | _ => Done (b32_fill x00)
  end.
Lemma p_commit_modest D src rng n : 162 <= n -> modest n (2 * 2 ^ D + 2) (p_commit D src rng).
Proof.
  intros N. unfold p_commit. destruct (try_commit src rng) as [[t|e]|k]; [|exact I|exact I].
  destruct (Nat.leb_spec (mt_depth t) D) as [L|]; [|exact I].
  apply (modest_mono n _ (2 * 2 ^ mt_depth t + 2)); [|apply p_tree_modest, N].
  pose proof (Nat.pow_le_mono_r 2 (mt_depth t) D). lia.
Qed.
Lemma p_commit_asked H D src rng t : try_commit src rng = Ret (Ok t) -> mt_depth t <= D ->
  incl (@tree_pre H t) (asked H (p_commit D src rng)).
Proof.
  intros E L. unfold p_commit. rewrite E. destruct (Nat.leb_spec (mt_depth t) D); [apply p_tree_asked|lia].
Qed.

Lemma c92_forgery : forall n U q D (adversary : prog (multi_source * option N * merkle_proof * bytes32 * bytes32))
  (strings : universe n U) (short : 162 <= n) (few : modest n q adversary),
  rare U (fun H => let '(src, rng, pf, pid, msg) := exec H adversary in
            valid_source src /\ valid_proof pf /\ ~ In (pid, msg) (ms_messages src) /\
            exists t md md' c, try_commit src rng = Ret (Ok t) /\ mt_depth t <= D /\
              @tree_commit_id H md t = Ret c /\ @convolve H md' pf pid msg = Ret (Ok c))
       (N.of_nat (q + (2 * 2 ^ D + 37)) * N.of_nat (q + (2 * 2 ^ D + 36))) (2 ^ 257).
Proof.
  intros n U q D adv UU N M. replace (q + (2 * 2 ^ D + 36)) with (q + (2 * 2 ^ D + 37) - 1) by lia.
  apply (rare_game n U adv (fun '(src, rng, pf, pid, msg) => andthen (p_commit D src rng) (fun _ => p_check pf pid msg)) q (2 * 2 ^ D + 37)); try assumption.
  - intros [[[[src rng] pf] pid] msg]. replace (2 * 2 ^ D + 37) with ((2 * 2 ^ D + 2) + 35) by lia.
    apply modest_andthen; [apply p_commit_modest, N|intros _; apply p_check_modest, N].
  - intros H. destruct (exec H adv) as [[[[src rng] pf] pid] msg]. intros (V & VP & NI & t & md & md' & c & E & L & T & C).
    destruct (c60_vouches H md' md pf pid msg src rng t c VP V E C T) as [[X _]|X]; [contradiction|].
    eapply collision_incl; [|exact X]. eapply incl_tran; [|apply both_asked].
    apply incl_app; [apply incl_appr, (p_check_asked H md' _ _ _ c C)|apply incl_appl, (p_commit_asked H D src rng t E L)].
Qed.

Lemma messages_kept src rng t : valid_source src -> try_commit src rng = Ret (Ok t) -> mt_messages t = ms_messages src.
Proof.
  intros V E. pose proof (try_commit_spec src rng (proj1 V) (proj1 (proj2 V))) as T. cbv zeta in T. rewrite E in T. tauto.
Qed.
Lemma c92_two_trees : forall n U q D (adversary : prog (multi_source * option N * (multi_source * option N)))
  (strings : universe n U) (short : 162 <= n) (few : modest n q adversary),
  rare U (fun H => let '(src1, rng1, (src2, rng2)) := exec H adversary in
            valid_source src1 /\ valid_source src2 /\ ms_messages src1 <> ms_messages src2 /\
            match rng1 with Some e => (e < 2 ^ 64)%N | None => True end /\
            match rng2 with Some e => (e < 2 ^ 64)%N | None => True end /\
            exists t1 t2 md c, try_commit src1 rng1 = Ret (Ok t1) /\ try_commit src2 rng2 = Ret (Ok t2) /\
              mt_depth t1 <= D /\ mt_depth t2 <= D /\ @tree_commit_id H md t1 = Ret c /\ @tree_commit_id H md t2 = Ret c)
       (N.of_nat (q + (4 * 2 ^ D + 4)) * N.of_nat (q + (4 * 2 ^ D + 3))) (2 ^ 257).
Proof.
  intros n U q D adv UU N M. replace (q + (4 * 2 ^ D + 3)) with (q + (4 * 2 ^ D + 4) - 1) by lia.
  apply (rare_game n U adv (fun '(src1, rng1, (src2, rng2)) => andthen (p_commit D src1 rng1) (fun _ => p_commit D src2 rng2)) q (4 * 2 ^ D + 4)); try assumption.
  - intros [[src1 rng1] [src2 rng2]]. replace (4 * 2 ^ D + 4) with ((2 * 2 ^ D + 2) + (2 * 2 ^ D + 2)) by lia.
    apply modest_andthen; [|intros _]; apply p_commit_modest, N.
  - intros H. destruct (exec H adv) as [[src1 rng1] [src2 rng2]].
    intros (V1 & V2 & D12 & R1 & R2 & t1 & t2 & md & c & E1 & E2 & L1 & L2 & T1 & T2).
    destruct (c27_tree_binding H md src1 rng1 t1 src2 rng2 t2 c V1 V2 R1 R2 E1 E2 T1 T2) as [[_ [_ [X _]]]|X].
    + exfalso. apply D12. rewrite (messages_kept src1 rng1 t1 V1 E1), (messages_kept src2 rng2 t2 V2 E2) in X. exact X.
    + eapply collision_incl; [|exact X]. eapply incl_tran; [|apply both_asked].
      apply incl_app; [apply incl_appl, (p_commit_asked H D src1 rng1 t1 E1 L1)|apply incl_appr, (p_commit_asked H D src2 rng2 t2 E2 L2)].
Qed.

(** Merkle roots of lists *)
Fixpoint halves (fuel : nat) (xs : list bytes32) : mtree :=
  match fuel with
  | O => TVoid
  | S fuel' =>
      match xs with
      | [] => TVoid
      | [a] => TOne a
      | [a; b] => TTwo a b
      | _ => let h := (length xs + 1) / 2 in TSplit (halves fuel' (firstn h xs)) (halves fuel' (skipn h xs))
      end
  end.
Lemma halves_splits fuel : forall xs, length xs <= fuel -> splits xs (halves fuel xs).
Proof.
  induction fuel as [|fuel IH]; intros xs L; [destruct xs; [constructor|cbn in L; lia]|].
  destruct xs as [|a [|b [|c xs]]]; [constructor|constructor|constructor|].
  cbn [halves]. set (l := a :: b :: c :: xs) in *. set (h := (length l + 1) / 2).
  assert (L3 : 3 <= length l) by (cbn; lia).
  pose proof (Nat.div_mod (length l + 1) 2 ltac:(lia)) as DM. pose proof (Nat.mod_upper_bound (length l + 1) 2 ltac:(lia)) as MU.
  fold h in DM.
  rewrite <- (firstn_skipn h l) at 1. constructor.
  - rewrite firstn_skipn. lia.
  - rewrite firstn_length, skipn_length. lia.
  - apply IH. rewrite firstn_length. lia.
  - apply IH. rewrite skipn_length. lia.
Qed.
Fixpoint p_mt (th : bytes32) (W : N) (d : nat) (t : mtree) : prog bytes32 :=
  match t with
  | TVoid => Ask (@s_void (always th) d W) Done
  | TOne a => Ask (@s_single (always th) d W a) Done
  | TTwo a b => Ask (@s_branch (always th) d W a b) Done
  | TSplit l r => andthen (p_mt th W (S d) l) (fun a => andthen (p_mt th W (S d) r) (fun b =>
      Ask (@s_branch (always th) d W a b) Done))
  end.
Lemma p_mt_exec H W t : forall d, exec H (p_mt (H s_node_tag) W d t) = @mthash H W d t.
Proof.
  induction t as [|a|a b|l IHl r IHr]; intros d; cbn [p_mt mthash exec]; [reflexivity|reflexivity|reflexivity|].
  rewrite !exec_andthen. cbn [exec]. rewrite IHl, IHr. reflexivity.
Qed.
Lemma p_mt_asked H W t : forall d, incl (@mtpre H W d t) (asked H (p_mt (H s_node_tag) W d t)).
Proof.
  induction t as [|a|a b|l IHl r IHr]; intros d s; cbn [p_mt mtpre asked]; try (intros I; exact I).
  rewrite !asked_andthen. cbn [asked]. rewrite !p_mt_exec. intros [<-|I].
  - apply in_or_app; right. apply in_or_app; right. left. reflexivity.
  - apply in_app_or in I as [I|I]; apply in_or_app; [left; apply IHl, I|right; apply in_or_app; left; apply IHr, I].
Qed.
Lemma p_mt_modest {H : Hasher} th W n t : 162 <= n -> forall d, modest n (length (mtpre W d t)) (p_mt th W d t).
Proof.
  intros N. induction t as [|a|a b|l IHl r IHr]; intros d; cbn [p_mt mtpre].
  1: pose proof (@mtpre_length (always th) W TVoid d) as X.
  2: pose proof (@mtpre_length (always th) W (TOne a) d) as X.
  3: pose proof (@mtpre_length (always th) W (TTwo a b) d) as X.
  1-3: cbn [length modest]; (split; [|intros; exact I]); (eapply Nat.le_trans; [apply X; left; reflexivity|exact N]).
  apply (modest_mono n _ (length (mtpre W (S d) l) + (length (mtpre W (S d) r) + 1))); [cbn [length]; rewrite app_length; lia|].
  apply modest_andthen; [apply IHl|]. intros a. apply modest_andthen; [apply IHr|]. intros b. cbn. split; [|intros; exact I].
  eapply Nat.le_trans; [apply (@branch_length (always th))|exact N].
Qed.
Definition p_root (k : nat) (xs : list bytes32) : prog bytes32 :=
  if (length xs <=? k) && negb (length xs =? 1)
  then Ask s_node_tag (fun th => p_mt th (N.of_nat (length xs)) 0 (halves (length xs) xs))
  else Done (b32_fill x00).
Lemma p_root_modest k xs n : 162 <= n -> modest n (2 * k + 2) (p_root k xs).
Proof.
  intros N. unfold p_root. destruct (Nat.leb_spec (length xs) k) as [L|]; cbn [andb]; [|exact I]. destruct (length xs =? 1); cbn [negb]; [exact I|].
  replace (2 * k + 2) with (S (2 * k + 1)) by lia.
  split; [eapply Nat.le_trans; [apply tag_length|exact N]|]. intros th.
  eapply modest_mono; [|apply (@p_mt_modest (always th)), N].
  destruct xs as [|x xs]; [cbn; lia|].
  pose proof (@mt_count (always th) (N.of_nat (length (x :: xs))) _ _ (halves_splits (length (x :: xs)) (x :: xs) (le_n _)) 0 ltac:(discriminate)). lia.
Qed.
Lemma p_root_asked H k xs L : length xs <= k -> length xs <> 1 -> @root_hashed H xs L -> incl L (asked H (p_root k xs)).
Proof.
  intros LK L1 R. unfold p_root. rewrite (proj2 (Nat.leb_le _ _) LK), (proj2 (Nat.eqb_neq _ _) L1). cbn [andb negb asked].
  destruct R as [a|xs t N S]; [cbn in L1; lia|].
  rewrite (splits_fun _ _ S _ (halves_splits (length xs) xs (le_n _))).
  intros s [<-|I]; [left; reflexivity|right; apply p_mt_asked, I].
Qed.
Lemma c92_two_lists : forall n U q k (adversary : prog (list bytes32 * list bytes32))
  (strings : universe n U) (short : 162 <= n) (few : modest n q adversary),
  rare U (fun H => let '(xs, ys) := exec H adversary in
            xs <> ys /\ length xs <= k /\ length ys <= k /\ length xs <> 1 /\ length ys <> 1 /\
            exists r, @merklize H xs = Ret r /\ @merklize H ys = Ret r)
       (N.of_nat (q + (4 * k + 4)) * N.of_nat (q + (4 * k + 3))) (2 ^ 257).
Proof.
  intros n U q k adv UU N M. replace (q + (4 * k + 3)) with (q + (4 * k + 4) - 1) by lia.
  apply (rare_game n U adv (fun '(xs, ys) => andthen (p_root k xs) (fun _ => p_root k ys)) q (4 * k + 4)); try assumption.
  - intros [xs ys]. replace (4 * k + 4) with ((2 * k + 2) + (2 * k + 2)) by lia.
    apply modest_andthen; [|intros _]; apply p_root_modest, N.
  - intros H. destruct (exec H adv) as [xs ys]. intros (D & Lx & Ly & Nx & Ny & r & E1 & E2).
    pose proof (@hashed_tree H xs _ Nx (halves_splits (length xs) xs (le_n _))) as Rx.
    pose proof (@hashed_tree H ys _ Ny (halves_splits (length ys) ys (le_n _))) as Ry.
    destruct (c24_binding H xs ys r _ _ E1 E2 Rx Ry) as [X|X]; [split; intros; contradiction|contradiction|].
    eapply collision_incl; [|exact X]. eapply incl_tran; [|apply both_asked].
    apply incl_app; [apply incl_appl|apply incl_appr]; apply p_root_asked; assumption.
Qed.

(** What the fractions mean *)
Lemma c92_meaning : forall n,
  (exists U, universe n U) /\
  (forall U, universe n U -> forall num den, rare U (fun _ => True) num den <-> (den <= num)%N) /\
  (forall U, universe n U -> forall H : Hasher, exists f, length f = length U /\ forall s, length s <= n -> table U f s = H s).
Proof.
  intros n. split; [apply all_strings|split].
  - intros U [NU IU] num den. destruct (c86_all (length U)) as (L & [NL IL] & LL). split.
    + intros R. specialize (R L NL (fun f If => conj (proj1 (IL f) If) I)). rewrite LL, N.mul_comm in R.
      apply N.mul_le_mono_pos_r in R; [exact R|]. apply N.neq_0_lt_0, N.pow_nonzero. discriminate.
    + intros D B NB HB.
      assert (X : (N.of_nat (length B) <= 2 ^ (256 * N.of_nat (length U)))%N).
      { rewrite <- LL. assert (length B <= length L); [|lia]. apply NoDup_incl_length; [exact NB|]. intros f If. apply IL, HB, If. }
      rewrite N.mul_comm. apply N.mul_le_mono; assumption.
  - intros U [NU IU] H. exists (map H U). split; [apply map_length|]. intros s L. apply IU in L. clear IU.
    induction U as [|u U IH]; [destruct L|]. cbn [map table]. destruct (bytes_eqb u s) eqn:E; [apply bytes_eqb_eq in E; congruence|].
    inversion NU; subst. apply IH; [assumption|]. destruct L as [->|L]; [|exact L].
    assert (bytes_eqb s s = true) by (apply bytes_eqb_eq; reflexivity). congruence.
Qed.
Lemma c92_numbers : forall n U q (adversary : prog (merkle_proof * bytes32 * merkle_proof * bytes32 * bytes32))
  (strings : universe n U) (short : 162 <= n) (few : modest n q adversary) (work : (N.of_nat q <= 2 ^ 100)%N),
  rare U (fun H => let '(pf1, m1, pf2, m2, pid) := exec H adversary in
            valid_proof pf1 /\ valid_proof pf2 /\ m1 <> m2 /\
            exists md c, @convolve H md pf1 pid m1 = Ret (Ok c) /\ @convolve H md pf2 pid m2 = Ret (Ok c))
       1 (2 ^ 56).
Proof.
  intros n U q adv UU N M W B NB HB.
  pose proof (c92_two_messages n U q adv UU N M B NB) as X.
  assert (X' : (N.of_nat (length B) * 2 ^ 257 <= N.of_nat (q + 70) * N.of_nat (q + 69) * 2 ^ (256 * N.of_nat (length U)))%N).
  { apply X. intros f If. destruct (HB f If) as [L P]. split; [exact L|]. destruct (exec _ adv) as [[[[pf1 m1] pf2] m2] pid].
    destruct P as (V1 & V2 & D & md & c & E1 & E2). split; [exact V1|split; [exact V2|split; [left; exact D|]]]. exists md, md, c. auto. }
  assert (K : (N.of_nat (q + 70) * N.of_nat (q + 69) <= 2 ^ 201)%N).
  { rewrite !Nat2N.inj_add. change (N.of_nat 70) with 70%N. change (N.of_nat 69) with 69%N.
    eapply N.le_trans; [apply N.mul_le_mono; (eapply N.le_trans; [apply N.add_le_mono_r, W|apply N.le_refl])|].
    vm_compute. discriminate. }
  set (T := (2 ^ (256 * N.of_nat (length U)))%N) in *. rewrite N.mul_1_l.
  assert (Y : (2 ^ 201 * (N.of_nat (length B) * 2 ^ 56) <= 2 ^ 201 * T)%N).
  { replace (2 ^ 201 * (N.of_nat (length B) * 2 ^ 56))%N with (N.of_nat (length B) * 2 ^ 257)%N.
    - eapply N.le_trans; [exact X'|]. apply N.mul_le_mono_r, K.
    - change (2 ^ 257)%N with (2 ^ 201 * 2 ^ 56)%N. lia. }
  apply N.mul_le_mono_pos_l in Y; [exact Y|reflexivity].
Qed.
