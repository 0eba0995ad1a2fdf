(** Codecs against type descriptions. *)
From Verif Require Import Base BaseFacts OrdMap OrdMapFacts Strict SpecCodec StrictProofs SpecValid Merkle MpcAtoms MpcTree
  MpcBlock Engine CodecProofs EngineProofs Stl SpecStl.
Local Open Scope nat_scope.

Scheme sencodes_mut := Induction for sencodes Sort Prop
  with sfields_mut := Induction for sfields Sort Prop
  with stuple_mut := Induction for stuple Sort Prop
  with sitems_mut := Induction for sitems Sort Prop
  with sentries_mut := Induction for sentries Sort Prop.

Lemma little_val l : little l = le_val l.
Proof. induction l as [|b l IH]; cbn; [reflexivity|]. rewrite IH. reflexivity. Qed.

Lemma lex_cons x a b : lex a b -> lex (x :: a) (x :: b).
Proof.
  destruct 1 as [p y b|p x' y a b L].
  - exact (LexEnd (x :: p) y b).
  - exact (LexDiff (x :: p) x' y a b L).
Qed.
Lemma lex_ltb a b : lex a b <-> bytes_ltb a b = true.
Proof.
  split.
  - destruct 1 as [p y b|p x y a b L].
    + induction p as [|z p IH]; cbn; [reflexivity|]. rewrite IH.
      rewrite (proj2 (byte_eqb_eq z z) eq_refl). cbn. apply orb_true_r.
    + induction p as [|z p IH]; cbn.
      * apply N.ltb_lt in L. rewrite L. reflexivity.
      * rewrite IH, (proj2 (byte_eqb_eq z z) eq_refl). cbn. apply orb_true_r.
  - revert b; induction a as [|x a IH]; intros [|y b] E; cbn in E; try discriminate.
    + exact (LexEnd [] y b).
    + apply orb_true_iff in E as [E|E].
      * apply N.ltb_lt in E. exact (LexDiff [] x y a b E).
      * apply andb_true_iff in E as [E1 E2]. apply byte_eqb_eq in E1 as ->. apply lex_cons, IH, E2.
Qed.

Section Desc.
Context (lib : list (string * sty)).

(** [c] encodes the valid values exactly as [t] says, seen through [view]. *)
Definition desc {A} (c : codec A) (valid : A -> Prop) (view : A -> sval) (t : sty) : Prop :=
  (forall a, valid a -> sencodes lib t (view a) (enc c a)) /\
  (forall v bs, sencodes lib t v bs -> exists a, valid a /\ view a = v /\ enc c a = bs).
Definition fdesc {A} (c : codec A) (valid : A -> Prop) (view : A -> list (string * sval)) (fs : list (string * sty)) : Prop :=
  (forall a, valid a -> sfields lib fs (view a) (enc c a)) /\
  (forall v bs, sfields lib fs v bs -> exists a, valid a /\ view a = v /\ enc c a = bs).
Definition tdesc {A} (c : codec A) (valid : A -> Prop) (view : A -> list sval) (ts : list sty) : Prop :=
  (forall a, valid a -> stuple lib ts (view a) (enc c a)) /\
  (forall v bs, stuple lib ts v bs -> exists a, valid a /\ view a = v /\ enc c a = bs).

Lemma desc_dec {A} (c : codec A) valid view t : lawful c valid -> desc c valid view t ->
  forall v bs r, sencodes lib t v bs <-> exists a, dec c (bs ++ r) = Some (a, r) /\ view a = v.
Proof.
  intros L [F B] v bs r. split.
  - intros S. destruct (B v bs S) as (a & V & <- & <-). exists a. split; [apply (law_rt _ _ L), V|reflexivity].
  - intros (a & D & <-). apply (law_can _ _ L) in D as [E V]. apply app_inv_tail in E as ->. apply F, V.
Qed.

Lemma desc_name {A} (c : codec A) valid view n t : find_type n lib = Some t -> desc c valid view t -> desc c valid view (TName n).
Proof.
  intros E [F B]. split.
  - intros a V. apply (EncName _ _ _ _ _ E), F, V.
  - intros v bs S. inversion S; subst. rewrite E in H0. injection H0 as <-. apply B. assumption.
Qed.
Lemma desc_iso {A B} (c : codec A) v view t (f : A -> B) (g : B -> A) w view' :
  desc c v view t -> (forall a, g (f a) = a) -> (forall b, w b <-> v (g b)) -> (forall b, view' b = view (g b)) ->
  desc (c_iso c f g) w view' t.
Proof.
  intros [F B1] GF W E. split; cbn.
  - intros b V. rewrite E. apply F, W, V.
  - intros x bs S. destruct (B1 x bs S) as (a & V & <- & <-). exists (f a). rewrite W, E, GF. repeat split. exact V.
Qed.

Lemma desc_le k : desc (c_le k) (fun v => (v < 256 ^ N.of_nat k)%N) DInt (TUInt k).
Proof.
  split; cbn.
  - intros n V. replace (DInt n) with (DInt (little (le k n))).
    + constructor. apply le_length.
    + rewrite little_val, le_val_le, N.mod_small by exact V. reflexivity.
  - intros v bs S. inversion S; subst. exists (little bs). rewrite little_val. repeat split.
    + apply le_val_bound.
    + apply le_of_val.
Qed.
Lemma desc_b32 : desc c_b32 (fun _ => True) d_b32 (TBytes 32).
Proof.
  split; cbn.
  - intros b _. constructor. apply b32_length.
  - intros v bs S. inversion S; subst.
    destruct (b32_of_some bs) as (b & _ & <-); [assumption|]. exists b. repeat split.
Qed.

(** Fields, tuples *)
Lemma sunion_inv alts x bs : sencodes lib (TUnion alts) x bs ->
  exists name b t v r, x = DUnion name v /\ bs = b :: r /\ In (name, Byte.to_N b, t) alts /\ sencodes lib t v r.
Proof. intros S. inversion S; subst. do 5 eexists. repeat split; eassumption. Qed.
Lemma slist_inv t min max x bs : sencodes lib (TList t min max) x bs ->
  exists vs p r, x = DList vs /\ bs = p ++ r /\ length p = prefix_bytes max /\ little p = N.of_nat (length vs) /\
    (min <= little p <= max)%N /\ sitems lib t vs r.
Proof. intros S. inversion S; subst. do 3 eexists. repeat split; try eassumption; lia. Qed.
Lemma smap_inv k t min max x bs : sencodes lib (TMap k t min max) x bs ->
  exists es p r, x = DMap es /\ bs = p ++ r /\ length p = prefix_bytes max /\ little p = N.of_nat (length es) /\
    (min <= little p <= max)%N /\ sentries lib k t es r /\ increasing (map fst es).
Proof. intros S. inversion S; subst. do 3 eexists. repeat split; try eassumption; lia. Qed.
Lemma sfields_inv n t fs x bs : sfields lib ((n, t) :: fs) x bs ->
  exists v vs b1 b2, x = (n, v) :: vs /\ bs = b1 ++ b2 /\ sencodes lib t v b1 /\ sfields lib fs vs b2.
Proof. intros S. inversion S; subst. do 4 eexists. repeat split; eassumption. Qed.
Lemma stuple_inv t ts x bs : stuple lib (t :: ts) x bs ->
  exists v vs b1 b2, x = v :: vs /\ bs = b1 ++ b2 /\ sencodes lib t v b1 /\ stuple lib ts vs b2.
Proof. intros S. inversion S; subst. do 4 eexists. repeat split; eassumption. Qed.
Lemma fdesc_one {A} (c : codec A) v view n t : desc c v view t -> fdesc c v (fun a => [(n, view a)]) [(n, t)].
Proof.
  intros [F B]. split.
  - intros a V. rewrite <- (app_nil_r (enc c a)). constructor; [apply F, V|constructor].
  - intros x bs S. apply sfields_inv in S as (y & ys & b1 & b2 & -> & -> & S1 & S2).
    inversion S2; subst. rewrite app_nil_r.
    destruct (B _ _ S1) as (a & V & <- & <-). exists a. repeat split; assumption.
Qed.
Lemma fdesc_cons {A C} (c : codec A) (d : codec C) v w view views n t fs :
  desc c v view t -> fdesc d w views fs ->
  fdesc (c_pair c d) (fun p => v (fst p) /\ w (snd p)) (fun p => (n, view (fst p)) :: views (snd p)) ((n, t) :: fs).
Proof.
  intros [F B] [G D]. split.
  - intros [a b] [V W]; cbn. constructor; [apply F, V|apply G, W].
  - intros x bs S. apply sfields_inv in S as (y & ys & b1 & b2 & -> & -> & S1 & S2).
    destruct (B _ _ S1) as (a & V & <- & <-). destruct (D _ _ S2) as (b & W & <- & <-).
    exists (a, b). repeat split; assumption.
Qed.
Lemma desc_struct {A} (c : codec A) v views fs : fdesc c v views fs -> desc c v (fun a => DStruct (views a)) (TStruct fs).
Proof.
  intros [F B]. split.
  - intros a V. constructor. apply F, V.
  - intros x bs S. inversion S; subst. destruct (B _ _ H0) as (a & V & <- & <-). exists a. repeat split; assumption.
Qed.
Lemma tdesc_one {A} (c : codec A) v view t : desc c v view t -> tdesc c v (fun a => [view a]) [t].
Proof.
  intros [F B]. split.
  - intros a V. rewrite <- (app_nil_r (enc c a)). constructor; [apply F, V|constructor].
  - intros x bs S. apply stuple_inv in S as (y & ys & b1 & b2 & -> & -> & S1 & S2).
    inversion S2; subst. rewrite app_nil_r.
    destruct (B _ _ S1) as (a & V & <- & <-). exists a. repeat split; assumption.
Qed.
Lemma tdesc_cons {A C} (c : codec A) (d : codec C) v w view views t ts :
  desc c v view t -> tdesc d w views ts ->
  tdesc (c_pair c d) (fun p => v (fst p) /\ w (snd p)) (fun p => view (fst p) :: views (snd p)) (t :: ts).
Proof.
  intros [F B] [G D]. split.
  - intros [a b] [V W]; cbn. constructor; [apply F, V|apply G, W].
  - intros x bs S. apply stuple_inv in S as (y & ys & b1 & b2 & -> & -> & S1 & S2).
    destruct (B _ _ S1) as (a & V & <- & <-). destruct (D _ _ S2) as (b & W & <- & <-).
    exists (a, b). repeat split; assumption.
Qed.
Lemma desc_tuple {A} (c : codec A) v views ts : tdesc c v views ts -> desc c v (fun a => DTuple (views a)) (TTuple ts).
Proof.
  intros [F B]. split.
  - intros a V. constructor. apply F, V.
  - intros x bs S. inversion S; subst. destruct (B _ _ H0) as (a & V & <- & <-). exists a. repeat split; assumption.
Qed.

(** Unions of two alternatives, options *)
Lemma desc_union {A C} ta tb (ca : codec A) (cb : codec C) va vb viewa viewb na nb t u :
  desc ca va viewa t -> desc cb vb viewb u ->
  desc (c_sum ta tb ca cb) (fun s => match s with inl a => va a | inr b => vb b end)
    (fun s => match s with inl a => DUnion na (viewa a) | inr b => DUnion nb (viewb b) end)
    (TUnion [(na, Byte.to_N ta, t); (nb, Byte.to_N tb, u)]).
Proof.
  intros [F B] [G D]. split.
  - intros [a|b] V; cbn.
    + apply (EncUnion _ _ _ _ t); [left; reflexivity|apply F, V].
    + apply (EncUnion _ _ _ _ u); [right; left; reflexivity|apply G, V].
  - intros x bs S. apply sunion_inv in S as (name & b & w & y & r & -> & -> & [E|[E|[]]] & S);
      injection E as <- E <-; apply byte_to_N_inj in E as <-.
    + destruct (B _ _ S) as (a & V & <- & <-). exists (inl a). repeat split; assumption.
    + destruct (D _ _ S) as (b & V & <- & <-). exists (inr b). repeat split; assumption.
Qed.
Lemma desc_option {A} (c : codec A) v view t : desc c v view t ->
  desc (c_option c) (fun o => match o with None => True | Some a => v a end)
    (fun o => match o with None => DNone | Some a => DSome (view a) end) (TOption t).
Proof.
  intros [F B]. split.
  - intros [a|] V; cbn; constructor. apply F, V.
  - intros x bs S. inversion S; subst.
    + exists None. repeat split.
    + destruct (B _ _ H0) as (a & V & <- & <-). exists (Some a). repeat split; assumption.
Qed.

(** Collections *)
Lemma desc_vec {A} k min max (c : codec A) v view t : k = prefix_bytes max -> (max < 256 ^ N.of_nat k)%N ->
  desc c v view t -> desc (c_vec k min max c) (vec_valid min max v) (fun x => DList (map view x)) (TList t min max).
Proof.
  intros K M [F B]. split.
  - intros x [L V]; cbn. constructor.
    + rewrite le_length. exact K.
    + rewrite little_val, le_val_le, N.mod_small, map_length by lia. reflexivity.
    + rewrite little_val, le_val_le, N.mod_small by lia. exact L.
    + clear L. induction V as [|a x Va Vx IH]; cbn; constructor; [apply F, Va|exact IH].
  - intros x bs S. apply slist_inv in S as (vs & p & bs0 & -> & -> & LP & VP & RG & IT).
    assert (exists y, Forall v y /\ map view y = vs /\ flat_map (enc c) y = bs0) as (y & V & E1 & E2).
    { clear - IT B. induction IT as [|t w vs bs bs' Hw Hs IH].
      - exists []. repeat split. constructor.
      - destruct (B _ _ Hw) as (a & Va & <- & <-). destruct (IH B) as (y & Vy & <- & <-).
        exists (a :: y). repeat split. constructor; assumption. }
    exists y. subst vs bs0. rewrite map_length in VP. split; [split; [rewrite VP in RG; exact RG|exact V]|].
    split; [reflexivity|]. cbn. f_equal. rewrite <- VP, little_val, K, <- LP. apply le_of_val.
Qed.

Lemma increasing_sorted {K V} (ltb : K -> K -> bool) (view : K -> sval) (viewv : V -> sval) (m : list (K * V)) :
  (forall a b, In a (map fst m) -> In b (map fst m) -> (key_lt (view a) (view b) <-> ltb a b = true)) ->
  (increasing (map fst (map (fun p => (view (fst p), viewv (snd p))) m)) <-> om_sorted ltb m = true).
Proof.
  induction m as [|[k w] [|[k' w'] m] IH]; intros E.
  - cbn. split; [reflexivity|constructor].
  - cbn. split; [reflexivity|constructor].
  - change (om_sorted ltb ((k, w) :: (k', w') :: m)) with (ltb k k' && om_sorted ltb ((k', w') :: m)).
    rewrite andb_true_iff, <- IH by (intros a b Ia Ib; apply E; right; assumption).
    rewrite <- (E k k') by (cbn; tauto). cbn. split.
    + intros X. inversion X; subst. split; assumption.
    + intros [X Y]. constructor; assumption.
Qed.

Lemma desc_omap {K V} k min max ltb (ck : codec K) (cv : codec V) vk vv viewk viewv tk tv :
  k = prefix_bytes max -> (max < 256 ^ N.of_nat k)%N ->
  (forall a b, key_lt (viewk a) (viewk b) <-> ltb a b = true) ->
  desc ck vk viewk tk -> desc cv vv viewv tv ->
  desc (c_omap k min max ltb ck cv)
    (fun m => vec_valid min max (fun p => vk (fst p) /\ vv (snd p)) m /\ om_sorted ltb m = true)
    (fun m => DMap (map (fun p => (viewk (fst p), viewv (snd p))) m)) (TMap tk tv min max).
Proof.
  intros KP M O [F B] [G D]. split.
  - intros x [[L W] S]; cbn. constructor.
    + rewrite le_length. exact KP.
    + rewrite little_val, le_val_le, N.mod_small, map_length by lia. reflexivity.
    + rewrite little_val, le_val_le, N.mod_small by lia. exact L.
    + clear L S. induction W as [|[a b] x [Va Vb] Vx IH]; cbn; [constructor|].
      rewrite <- app_assoc. constructor; [apply F, Va|apply G, Vb|exact IH].
    + apply (increasing_sorted ltb viewk viewv); [intros a b _ _; apply O|exact S].
  - intros x bs S. apply smap_inv in S as (es & p & bs0 & -> & -> & LP & VP & RG & IT & INC).
    assert (exists y, Forall (fun p => vk (fst p) /\ vv (snd p)) y /\
      map (fun p => (viewk (fst p), viewv (snd p))) y = es /\ flat_map (enc (c_pair ck cv)) y = bs0) as (y & W & E1 & E2).
    { clear - IT B D. induction IT as [|k t a w es ba bv bs Ha Hw Hs IH].
      - exists []. repeat split. constructor.
      - destruct (B _ _ Ha) as (x & Vx & <- & <-). destruct (D _ _ Hw) as (z & Vz & <- & <-).
        destruct (IH B D) as (y & Vy & <- & <-).
        exists ((x, z) :: y). repeat split; [constructor; [split; assumption|assumption]|].
        cbn. rewrite <- app_assoc. reflexivity. }
    exists y. subst es bs0. rewrite map_length in VP.
    split; [split; [split; [rewrite VP in RG; exact RG|exact W]|]|].
    { apply (increasing_sorted ltb viewk viewv); [intros a b _ _; apply O|exact INC]. }
    split; [reflexivity|]. cbn. f_equal. rewrite <- VP, little_val, KP, <- LP. apply le_of_val.
Qed.

Lemma key_bytes (a b : bytes32) : key_lt (d_b32 a) (d_b32 b) <-> b32_ltb a b = true.
Proof.
  unfold b32_ltb. rewrite <- lex_ltb. split; intros X; [inversion X; assumption|constructor; exact X].
Qed.
Lemma key_int (a b : N) : key_lt (DInt a) (DInt b) <-> (a <? b)%N = true.
Proof. rewrite N.ltb_lt. split; intros X; [inversion X; assumption|constructor; exact X]. Qed.
End Desc.

(** ** The crate's types *)
Lemma senum_inv lib vs x bs : sencodes lib (TEnum vs) x bs ->
  exists name b, x = DEnum name /\ bs = [b] /\ In (name, Byte.to_N b) vs.
Proof. intros S. inversion S; subst. do 2 eexists. repeat split. assumption. Qed.

Notation D := (desc commit_verify_sty).

Lemma D_b32 n : find_type n commit_verify_sty = Some (TBytes 32) -> D c_b32 (fun _ => True) d_b32 (TName n).
Proof. intros E. apply (desc_name _ _ _ _ _ _ E), desc_b32. Qed.

Lemma D_method : D c_method (fun _ => True) d_method (TName "Method").
Proof.
  eapply desc_name; [reflexivity|]. split.
  - intros [] _. apply EncEnum. left. reflexivity.
  - intros v bs S. apply senum_inv in S as (name & b & -> & -> & [E|[]]). injection E as <- E.
    apply (byte_to_N_inj x00) in E as <-. exists Sha256t. repeat split.
Qed.
Lemma D_branching : D c_branching (fun _ => True) d_branching (TName "NodeBranching").
Proof.
  eapply desc_name; [reflexivity|]. split.
  - intros [] _; apply EncEnum; cbn; tauto.
  - intros v bs S. apply senum_inv in S as (name & b & -> & -> & [E|[E|[E|[]]]]); injection E as <- E.
    + apply (byte_to_N_inj x00) in E as <-. exists Void. repeat split.
    + apply (byte_to_N_inj x01) in E as <-. exists Single. repeat split.
    + apply (byte_to_N_inj x02) in E as <-. exists Branch. repeat split.
Qed.
Lemma D_u5 : D c_u5 (fun d => d <= 31) d_u5 (TName "Std.U5").
Proof.
  eapply desc_name; [reflexivity|]. split.
  - intros d V. do 32 (destruct d as [|d]; [apply EncEnum; vm_compute; tauto|]). lia.
  - intros v bs S. apply senum_inv in S as (name & b & -> & -> & I).
    assert (exists d, d <= 31 /\ d_u5 d = DEnum name /\ N.of_nat d = Byte.to_N b) as (d & V & <- & E).
    { revert I. generalize (Byte.to_N b) as n. intros n I.
      repeat match goal with X : In _ _ |- _ => destruct X as [X|X];
        [injection X as <- <-;
         match goal with |- exists d, _ /\ _ /\ _ = ?n => exists (N.to_nat n) end; vm_compute; repeat split; lia|] end.
      destruct I. }
    exists d. split; [exact V|split; [reflexivity|]]. unfold c_u5, c_part; cbn [enc c_le le].
    rewrite E, byte_of_N_of. reflexivity.
Qed.

Ltac prim := first [ exact D_method | exact D_branching | exact D_u5 | apply D_b32; reflexivity | apply desc_le ].
Ltac fields := first [ eapply fdesc_cons; [prim|fields] | apply fdesc_one; prim ].
Ltac record := apply desc_struct; fields.

Lemma D_leaf : D c_leaf valid_leaf d_leaf (TName "Leaf").
Proof.
  eapply desc_name; [reflexivity|]. unfold c_leaf. eapply desc_iso.
  - eapply (desc_union _ x10 x11); record.
  - intros [[p m]|[e i]]; reflexivity.
  - intros [p m|e i]; cbn; tauto.
  - intros [p m|e i]; reflexivity.
Qed.
Lemma D_tree_node : D c_tree_node valid_tree_node d_tree_node (TName "TreeNode").
Proof.
  eapply desc_name; [reflexivity|]. unfold c_tree_node. eapply desc_iso.
  - eapply (desc_union _ x00 x01); record.
  - intros [[p m]|[e i]]; reflexivity.
  - intros [p m|e i]; cbn; tauto.
  - intros [p m|e i]; reflexivity.
Qed.
Lemma D_node : D c_merkle_node valid_node d_node (TName "MerkleNode").
Proof.
  eapply desc_name; [reflexivity|]. unfold c_merkle_node. eapply desc_iso.
  - record.
  - intros (b & d & w & n1 & n2); reflexivity.
  - intros [b d w n1 n2]; cbn. unfold valid_node; cbn. tauto.
  - reflexivity.
Qed.
Lemma D_concealed : D c_merkle_concealed valid_concealed d_concealed (TName "MerkleConcealed").
Proof.
  eapply desc_name; [reflexivity|]. unfold c_merkle_concealed. eapply desc_iso.
  - record.
  - intros (d & w & n1); reflexivity.
  - intros [d w n1]; cbn. unfold valid_concealed; cbn. tauto.
  - reflexivity.
Qed.
Lemma D_proof : D c_merkle_proof valid_proof d_proof (TName "MerkleProof").
Proof.
  eapply desc_name; [reflexivity|]. unfold c_merkle_proof. eapply desc_iso.
  - apply desc_struct. do 3 (eapply fdesc_cons; [prim|]). apply fdesc_one.
    apply desc_vec; [reflexivity|reflexivity|]. prim.
  - intros (d & w & n1 & x); reflexivity.
  - intros [d w n1 x]; cbn. unfold valid_proof, vec_valid; cbn.
    assert (Forall (fun _ : bytes32 => True) x) by (apply Forall_forall; tauto). intuition lia.
  - reflexivity.
Qed.
Lemma D_block : D c_merkle_block valid_block d_block (TName "MerkleBlock").
Proof.
  eapply desc_name; [reflexivity|]. unfold c_merkle_block. eapply desc_iso.
  - apply desc_struct. do 3 (eapply fdesc_cons; [prim|]). eapply fdesc_cons.
    + apply desc_vec; [reflexivity|reflexivity|exact D_tree_node].
    + apply fdesc_one, desc_option, desc_le.
  - intros (d & w & n1 & x & e); reflexivity.
  - intros [d w n1 x e]; cbn. unfold valid_block, vec_valid, u32_lim; cbn. intuition lia.
  - reflexivity.
Qed.
Lemma D_tree : D c_merkle_tree valid_tree d_tree (TName "MerkleTree").
Proof.
  eapply desc_name; [reflexivity|]. unfold c_merkle_tree. eapply desc_iso.
  - apply desc_struct. do 4 (eapply fdesc_cons; [prim|]). eapply fdesc_cons.
    + apply desc_omap; [reflexivity|reflexivity|apply key_bytes|prim|prim].
    + apply fdesc_one. apply desc_omap; [reflexivity|reflexivity|apply key_int|prim|].
      apply desc_tuple. eapply tdesc_cons; [prim|]. apply tdesc_one. prim.
  - intros (d & w & n1 & x & e & f); reflexivity.
  - intros [m d e c x y]. unfold valid_tree, vec_valid.
    cbn [fst snd mt_method mt_depth mt_cofactor mt_entropy mt_messages mt_map].
    change (256 ^ N.of_nat 2)%N with (2 ^ 16)%N. change (256 ^ N.of_nat 4)%N with (2 ^ 32)%N.
    change (256 ^ N.of_nat 8)%N with (2 ^ 64)%N.
    change u24_max with 16777215%N. change (2 ^ 24)%N with 16777216%N.
    assert (F1 : Forall (fun p : bytes32 * bytes32 => True /\ True) x) by (apply Forall_forall; auto).
    assert (F2 : Forall (fun p : N * (bytes32 * bytes32) => (fst p < 2 ^ 32)%N /\ True /\ True) y <->
                 Forall (fun p : N * (bytes32 * bytes32) => (fst p < 2 ^ 32)%N) y).
    { rewrite !Forall_forall. split; intros Q p I; specialize (Q p I); tauto. }
    rewrite F2. intuition lia.
  - reflexivity.
Qed.
