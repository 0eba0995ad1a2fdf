(** The published type library and layouts *)
From Verif Require Import Base BaseFacts Strict SpecCodec StrictProofs SpecValid Merkle MpcAtoms MpcTree MpcBlock Engine
  Vesper CodecProofs EngineProofs Stl SpecStl StlProofs Text TheoremsMisc.
Local Open Scope nat_scope.

Lemma c83_types : forall bs rest v,
  (described "Leaf" v bs <-> exists a, dec c_leaf (bs ++ rest) = Some (a, rest) /\ d_leaf a = v) /\
  (described "MerkleNode" v bs <-> exists a, dec c_merkle_node (bs ++ rest) = Some (a, rest) /\ d_node a = v) /\
  (described "MerkleConcealed" v bs <-> exists a, dec c_merkle_concealed (bs ++ rest) = Some (a, rest) /\ d_concealed a = v) /\
  (described "TreeNode" v bs <-> exists a, dec c_tree_node (bs ++ rest) = Some (a, rest) /\ d_tree_node a = v) /\
  (described "MerkleBlock" v bs <-> exists a, dec c_merkle_block (bs ++ rest) = Some (a, rest) /\ d_block a = v) /\
  (described "MerkleProof" v bs <-> exists a, dec c_merkle_proof (bs ++ rest) = Some (a, rest) /\ d_proof a = v) /\
  (described "MerkleTree" v bs <-> exists a, dec c_merkle_tree (bs ++ rest) = Some (a, rest) /\ d_tree a = v) /\
  (described "Method" v bs <-> exists a, dec c_method (bs ++ rest) = Some (a, rest) /\ d_method a = v) /\
  (described "NodeBranching" v bs <-> exists a, dec c_branching (bs ++ rest) = Some (a, rest) /\ d_branching a = v) /\
  (forall name, In name ["Commitment"; "MerkleHash"; "Message"; "ProtocolId"; "StrictHash"]%string ->
     (described name v bs <-> exists a, dec c_b32 (bs ++ rest) = Some (a, rest) /\ d_b32 a = v)).
Proof.
  intros bs rest v. unfold described.
  split; [apply (desc_dec _ _ _ _ _ c_leaf_lawful D_leaf)|].
  split; [apply (desc_dec _ _ _ _ _ c_merkle_node_lawful D_node)|].
  split; [apply (desc_dec _ _ _ _ _ c_merkle_concealed_lawful D_concealed)|].
  split; [apply (desc_dec _ _ _ _ _ c_tree_node_lawful D_tree_node)|].
  split; [apply (desc_dec _ _ _ _ _ c_merkle_block_lawful D_block)|].
  split; [apply (desc_dec _ _ _ _ _ c_merkle_proof_lawful D_proof)|].
  split; [apply (desc_dec _ _ _ _ _ c_merkle_tree_lawful D_tree)|].
  split; [apply (desc_dec _ _ _ _ _ c_method_lawful D_method)|].
  split; [apply (desc_dec _ _ _ _ _ c_branching_lawful D_branching)|].
  intros name I. apply (desc_dec _ _ _ _ _ c_b32_lawful). apply D_b32.
  repeat (destruct I as [<-|I]; [reflexivity|]). destruct I.
Qed.

Lemma reserved_found n name : In (n, name) reserved_types -> find_type name commit_verify_sty = Some (TBytes n).
Proof. intros I. repeat (destruct I as [E|I]; [injection E as <- <-; reflexivity|]). destruct I. Qed.
Lemma reserved_positive n name : In (n, name) reserved_types -> 1 <= n.
Proof. intros I. repeat (destruct I as [E|I]; [injection E as <- <-; lia|]). destruct I. Qed.

Lemma c83_reserved : forall n name val l bs rest (published : In (n, name) reserved_types)
  (accepted : dec (c_reserved n val) (bs ++ rest) = Some (l, rest)), described name (DBytes l) bs.
Proof.
  intros n name val l bs rest I A. apply (EncName _ _ _ _ _ (reserved_found _ _ I)).
  cbn in A. destruct (take n (bs ++ rest)) as [[a r]|] eqn:T; [|discriminate].
  destruct (bytes_eqb a _); [|discriminate]. injection A as <- <-.
  apply take_spec in T as [E L]. apply app_inv_tail in E as <-. constructor. exact L.
Qed.

(** The published type of reserved bytes admits what the code refuses. *)
Lemma c83_reserved_narrow : forall n name val (published : In (n, name) reserved_types),
  exists bs, described name (DBytes bs) bs /\ forall rest, dec (c_reserved n val) (bs ++ rest) = None.
Proof.
  intros n name val I. pose proof (reserved_positive _ _ I) as P.
  set (x := if Byte.eqb val x00 then x01 else x00).
  assert (NE : x <> val).
  { unfold x. destruct (Byte.eqb val x00) eqn:E; [apply byte_eqb_eq in E as ->; discriminate|].
    intros X. rewrite <- X in E. discriminate E. }
  exists (repeat x n). split.
  - apply (EncName _ _ _ _ _ (reserved_found _ _ I)). constructor. apply repeat_length.
  - intros rest. cbn. replace (take n (repeat x n ++ rest)) with (Some (repeat x n, rest)).
    + destruct (bytes_eqb _ _) eqn:E; [|reflexivity]. apply bytes_eqb_eq in E. unfold reserved_default in E.
      destruct n as [|n]; [lia|]. injection E as E _. contradiction.
    + symmetry. apply take_spec. split; [reflexivity|apply repeat_length].
Qed.

(** The tags which Merkle.vesper prints for the leaf union are not the tags on the wire: nothing
    encoded as that file says is accepted. *)
Lemma c83_vesper_leaf : forall lib v bs rest (encoded : sencodes lib vesper_leaf v bs), dec c_leaf (bs ++ rest) = None.
Proof.
  intros lib v bs rest E. apply sunion_inv in E as (name & b & t & w & r & -> & -> & [E|[E|[]]] & _); injection E as <- E <-.
  - apply (byte_to_N_inj x00) in E as <-. reflexivity.
  - apply (byte_to_N_inj x01) in E as <-. reflexivity.
Qed.

(** Its tags are those of the library less sixteen; otherwise the two descriptions agree. *)
Lemma c83_vesper_tags : forall v b bs,
  sencodes commit_verify_sty vesper_leaf v (b :: bs) <->
  exists b', Byte.to_N b' = (Byte.to_N b + 16)%N /\ described "Leaf" v (b' :: bs).
Proof.
  intros v b bs. split.
  - intros E. apply sunion_inv in E as (name & b0 & t & w & r & -> & X & I & E). injection X as <- <-.
    destruct I as [I|[I|[]]]; injection I as <- I <-.
    + exists x10. split; [rewrite <- I; reflexivity|]. eapply EncName; [reflexivity|]. eapply EncUnion; [left; reflexivity|].
      inversion E as [| | |fs vs bs0 F| | | | | | |]; subst. constructor. inversion F as [|n1 t1 f1 v1 vs1 c1 c1' A1 F1]; subst. constructor.
      { eapply EncName; [reflexivity|exact A1]. }
      inversion F1 as [|n2 t2 f2 v2 vs2 c2 c2' A2 F2]; subst. constructor; [|exact F2]. eapply EncName; [reflexivity|exact A2].
    + exists x11. split; [rewrite <- I; reflexivity|]. eapply EncName; [reflexivity|]. eapply EncUnion; [right; left; reflexivity|exact E].
  - intros [b' [B E]]. inversion E as [| | | | | | | | | |n t w r FT E1]; subst. injection FT as <-.
    apply sunion_inv in E1 as (name & b0 & t & w & r & -> & X & I & E1). injection X as <- <-.
    destruct I as [I|[I|[]]]; injection I as <- I <-.
    + eapply EncUnion; [left; f_equal; f_equal; lia|].
      inversion E1 as [| | |fs vs bs0 F| | | | | | |]; subst. constructor. inversion F as [|n1 t1 f1 v1 vs1 c1 c1' A1 F1]; subst.
      inversion A1 as [| | | | | | | | | |n t w1 r FT A1']; subst. injection FT as <-. constructor; [exact A1'|].
      inversion F1 as [|n2 t2 f2 v2 vs2 c2 c2' A2 F2]; subst.
      inversion A2 as [| | | | | | | | | |n t w2 r FT A2']; subst. injection FT as <-. constructor; [exact A2'|exact F2].
    + eapply EncUnion; [right; left; f_equal; f_equal; lia|exact E1].
Qed.

(** The names of the library *)
Lemma c83_names :
  NoDup (map fst commit_verify_sty) /\
  (forall n name, In (n, name) reserved_types <-> 1 <= n <= 32 /\ name = ("ReservedBytes" ++ num_text (N.of_nat n))%string) /\
  (forall name, In name (map fst commit_verify_sty) <->
     In name ["Std.U5"; "Commitment"; "Leaf"; "MerkleBlock"; "MerkleConcealed"; "MerkleHash"; "MerkleNode"; "MerkleProof";
              "MerkleTree"; "Message"; "Method"; "NodeBranching"; "ProtocolId"; "StrictHash"; "TreeNode"]%string \/
     exists n, In (n, name) reserved_types).
Proof.
  split; [|split].
  - repeat (constructor; [intros I; vm_compute in I; repeat (destruct I as [I|I]; [discriminate|]); destruct I|]). constructor.
  - intros n name. split.
    + intros I. repeat (destruct I as [E|I]; [injection E as <- <-; split; [lia|reflexivity]|]). destruct I.
    + intros [L ->]. do 33 (destruct n as [|n]; [first [lia | vm_compute; tauto]|]). lia.
  - intros name. unfold commit_verify_sty. rewrite map_app, in_app_iff, map_map. cbn [map fst].
    assert (X : In name (map (fun x => snd x) reserved_types) <-> exists n, In (n, name) reserved_types).
    { rewrite in_map_iff. split; [intros [[n m] [<- I]]; exists n; exact I|intros [n I]; exists (n, name); split; [reflexivity|exact I]]. }
    rewrite X. cbn [In]. tauto.
Qed.

Lemma c84_layouts : forall (H : Hasher) md,
  (forall l, layout_lines (commitment_layout md ce_leaf l) = published_layout "Leaf") /\
  (forall n, layout_lines (commitment_layout md ce_merkle_node n) = published_layout "MerkleNode") /\
  (forall c, layout_lines (commitment_layout md ce_concealed c) = published_layout "MerkleConcealed") /\
  (forall b c, block_commit_id md b = Ret c -> layout_lines (commitment_layout md ce_block b) = published_layout "MerkleBlock") /\
  (forall t c, tree_commit_id md t = Ret c -> layout_lines (commitment_layout md ce_tree t) = published_layout "MerkleTree") /\
  (forall name, In name ["Leaf"; "MerkleNode"; "MerkleConcealed"; "MerkleBlock"; "MerkleTree"]%string ->
     exists lines, published_layout name = Some lines).
Proof.
  intros H md. destruct (c49_crate_layouts H md) as (L & N & C & B & T).
  split; [intros l; rewrite L; reflexivity|].
  split; [intros l; rewrite N; reflexivity|].
  split; [intros l; rewrite C; reflexivity|].
  split; [intros b c E; rewrite (B b c E); reflexivity|].
  split; [intros b c E; rewrite (T b c E); reflexivity|].
  intros name I. repeat (destruct I as [<-|I]; [eexists; reflexivity|]). destruct I.
Qed.
