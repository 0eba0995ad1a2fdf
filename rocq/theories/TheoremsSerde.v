(** C100: the documents which serde reads and writes. *)
From Coq Require Import Permutation.
From Verif Require Import Base BaseFacts Strict MpcAtoms MpcTree MpcBlock Schemes Api Text SpecText SpecCodec SpecValid CodecProofs TheoremsText Serde SpecSerde.
Local Open Scope nat_scope.

(** ** Structures *)
Definition one {A} (v : option A) : list A := match v with Some x => [x] | None => [] end.
Definition given (k : string) (es : list (string * doc)) : list doc := map snd (filter (fun e => String.eqb k (fst e)) es).
Fixpoint slots_fit (names : list string) (slots : list (option doc)) (es : list (string * doc)) (vals : list (option doc)) : Prop :=
  match names, slots, vals with
  | [], [], [] => True
  | n :: ns, s :: ss, v :: vs => one s ++ given n es = one v /\ slots_fit ns ss es vs
  | _, _, _ => False
  end.
Lemma given_cons n k v es : given n ((k, v) :: es) = (if String.eqb n k then [v] else []) ++ given n es.
Proof. unfold given. cbn [filter fst]. destruct (String.eqb n k); reflexivity. Qed.
Lemma fits_other names : forall slots es vals k v, ~ In k names -> slots_fit names slots ((k, v) :: es) vals <-> slots_fit names slots es vals.
Proof.
  induction names as [|n ns IH]; intros slots es vals k v NI; destruct slots, vals; cbn [slots_fit]; try tauto.
  rewrite given_cons. destruct (String.eqb_spec n k) as [->|_]; [destruct NI; left; reflexivity|]. cbn [app]. rewrite IH; [tauto|].
  intros I. apply NI. right. exact I.
Qed.
Lemma put_fits names : forall slots k v es vals, NoDup names -> length slots = length names ->
  (exists s', put_field names slots k v = Some s' /\ slots_fit names s' es vals) <-> slots_fit names slots ((k, v) :: es) vals.
Proof.
  induction names as [|n ns IH]; intros slots k v es vals ND L; destruct slots as [|s ss]; try discriminate; cbn [put_field].
  - split; [intros (s' & E & F); injection E as <-; exact F|]. intros F. exists []. split; [reflexivity|exact F].
  - inversion ND as [|? ? NI ND']; subst. cbn [length] in L. injection L as L. destruct vals as [|w vs].
    { split; [|intros []]. intros (s' & E & F). destruct s'; destruct F. }
    cbn [slots_fit]. rewrite given_cons. destruct (String.eqb_spec n k) as [->|Nk].
    + destruct s as [x|].
      * split; [intros (s' & E & _); discriminate|]. intros [E _]. destruct w; cbn in E; discriminate.
      * rewrite fits_other by exact NI. split.
        -- intros (s' & E & F). injection E as <-. exact F.
        -- intros F. exists (Some v :: ss). split; [reflexivity|exact F].
    + cbn [app]. split.
      * intros (s' & E & F). destruct (put_field ns ss k v) as [s1|] eqn:P; [|discriminate]. injection E as <-. destruct F as [F1 F2].
        split; [exact F1|]. apply IH; [exact ND'|exact L|]. exists s1. split; [exact P|exact F2].
      * intros [F1 F2]. apply IH in F2 as (s1 & P & F2); [|exact ND'|exact L]. rewrite P. exists (s :: s1). split; [reflexivity|]. split; assumption.
Qed.
Lemma put_field_length names : forall slots k v s', put_field names slots k v = Some s' -> length s' = length slots.
Proof.
  induction names as [|n ns IH]; intros slots k v s' E; destruct slots as [|s ss]; cbn [put_field] in E; try (injection E as <-; reflexivity).
  destruct (String.eqb n k); [destruct s; [discriminate|injection E as <-; reflexivity]|].
  destruct (put_field ns ss k v) as [s1|] eqn:P; [|discriminate]. injection E as <-. cbn [length]. f_equal. eapply IH, P.
Qed.
Lemma visit_fits names : NoDup names -> forall es slots vals, length slots = length names ->
  visit_map names slots es = Some vals <-> slots_fit names slots es vals.
Proof.
  intros ND. induction es as [|[k v] es IH]; intros slots vals L; cbn [visit_map].
  - assert (G : forall names slots vals, length slots = length names -> slots_fit names slots [] vals <-> slots = vals).
    { clear. induction names as [|n ns IH]; intros [|s ss] [|w vs] L; try discriminate; cbn [slots_fit]; [tauto|split; [tauto|discriminate]|split; [tauto|discriminate]|].
      unfold given. cbn [filter map]. rewrite app_nil_r. injection L as L. rewrite IH by exact L. split.
      - intros [E ->]. f_equal. destruct s, w; cbn in E; congruence.
      - intros E. injection E as -> ->. auto. }
    rewrite G by exact L. split; [intros E; injection E as ->; reflexivity|intros ->; reflexivity].
  - rewrite <- put_fits by assumption. destruct (put_field names slots k v) as [s'|] eqn:P.
    + rewrite IH by (rewrite (put_field_length _ _ _ _ _ P); exact L). split.
      * intros F. exists s'. auto.
      * intros (s1 & E & F). injection E as <-. exact F.
    + split; [discriminate|]. intros (s1 & E & _). discriminate.
Qed.
Lemma fits_members names : forall es vals, slots_fit names (map (fun _ => None) names) es vals <->
  Forall2 (fun k v => map snd (filter (fun e => String.eqb k (fst e)) es) = match v with Some x => [x] | None => [] end) names vals.
Proof.
  induction names as [|n ns IH]; intros es vals; destruct vals as [|w vs]; cbn [slots_fit map].
  - split; constructor.
  - split; [intros []|intros F; inversion F].
  - split; [intros []|intros F; inversion F].
  - rewrite IH. unfold one, given. cbn [app]. split; [intros [A B]; constructor; assumption|intros F; inversion F; auto].
Qed.
Lemma struct_members names d vals : NoDup names -> read_struct names d = Some vals <-> members names d vals.
Proof.
  intros ND. destruct d; cbn [read_struct members]; try (split; [discriminate|intros []]).
  - destruct (Nat.eqb_spec (length l) (length names)) as [E|E].
    + split; [intros Q; injection Q as <-; auto|intros [_ ->]; reflexivity].
    + split; [discriminate|tauto].
  - rewrite visit_fits by (try exact ND; apply map_length). apply fits_members.
Qed.
Ltac nodup := repeat constructor; cbn; intuition discriminate.

(** ** Foreign types *)
Lemma reads_id : reads read_id is_id.
Proof.
  intros d x. unfold read_id, is_id. split.
  - destruct d; try discriminate. intros E. exists s. split; [reflexivity|]. apply c87_parse, E.
  - intros (s & -> & H). apply c87_parse, H.
Qed.
Lemma reads_num bits : reads (read_uint bits) (is_num bits).
Proof.
  intros d x. unfold read_uint, is_num. split.
  - destruct d; try discriminate. destruct (N.ltb_spec n (2 ^ bits)); [|discriminate]. intros E. injection E as <-. auto.
  - intros [-> L]. apply N.ltb_lt in L. rewrite L. reflexivity.
Qed.
Lemma reads_depth ck : reads (read_u5 ck) (is_depth ck).
Proof.
  intros d x. unfold read_u5, is_depth. split.
  - destruct d; try discriminate. destruct (N.ltb_spec n 256); [|discriminate]. cbn [andb]. destruct ck; cbn [negb orb].
    + destruct (N.ltb_spec n 32); [|discriminate]. intros E. injection E as <-. rewrite N2Nat.id. split; [reflexivity|lia].
    + intros E. injection E as <-. rewrite N2Nat.id. split; [reflexivity|lia].
  - intros [-> L]. assert (L' : (N.of_nat x < 256)%N) by (destruct ck; lia). apply N.ltb_lt in L'. rewrite L'. cbn [andb]. destruct ck; cbn [negb orb].
    + assert (L2 : (N.of_nat x < 32)%N) by lia. apply N.ltb_lt in L2. rewrite L2, Nat2N.id. reflexivity.
    + rewrite Nat2N.id. reflexivity.
Qed.
Lemma reads_vec {A} (read : doc -> option A) is : reads read is -> reads (read_vec read) (is_list is).
Proof.
  intros R d l. unfold read_vec, is_list.
  assert (G : forall ds l, read_all read ds = Some l <-> Forall2 is l ds).
  { clear d l. induction ds as [|d ds IH]; intros l; cbn [read_all].
    - split; [intros E; injection E as <-; constructor|intros F; inversion F; reflexivity].
    - split.
      + destruct (read d) as [x|] eqn:E; [|discriminate]. destruct (read_all read ds) as [xs|] eqn:E'; [|discriminate].
        intros Q. injection Q as <-. constructor; [apply R, E|apply IH; reflexivity].
      + intros F. inversion F as [|x ? xs ? I F']; subst. apply R in I. apply IH in F'. rewrite I, F'. reflexivity. }
  split.
  - destruct d; try discriminate. intros E. exists l0. split; [reflexivity|]. apply G, E.
  - intros (ds & -> & F). apply G, F.
Qed.
Lemma reads_confined {A} ck lo hi (read : doc -> option A) is : reads read is ->
  reads (read_confined ck lo hi read) (fun l d => is_list is l d /\ (ck = true -> lo <= N.of_nat (length l) <= hi)%N).
Proof.
  intros R d l. unfold read_confined. pose proof (reads_vec read is R d) as V. split.
  - destruct (read_vec read d) as [x|] eqn:E; [|discriminate]. destruct ck; cbn [negb orb].
    + destruct (N.leb_spec lo (N.of_nat (length x))), (N.leb_spec (N.of_nat (length x)) hi); try discriminate.
      intros Q. injection Q as <-. split; [apply V; reflexivity|auto].
    + intros Q. injection Q as <-. split; [apply V; reflexivity|discriminate].
  - intros [I B]. apply V in I. rewrite I. destruct ck; [|reflexivity]. specialize (B eq_refl). cbn [negb orb].
    rewrite (proj2 (N.leb_le _ _) (proj1 B)), (proj2 (N.leb_le _ _) (proj2 B)). reflexivity.
Qed.
Lemma reads_enum d s c : read_enum d = Some (s, c) <-> match c with None => d = JText s | Some v => d = JMap [(s, v)] end.
Proof.
  split.
  - destruct d as [| | | |[|[k v] [|]]|]; try discriminate; intros E; injection E as <- <-; reflexivity.
  - destruct c; intros ->; reflexivity.
Qed.
Lemma unit_tagged d s c : read_enum d = Some (s, c) -> unit_content c = true -> named_variant s d.
Proof.
  intros E U. apply reads_enum in E. unfold named_variant. destruct c as [v|]; [|left; exact E]. destruct v; try discriminate. right. exact E.
Qed.
Lemma tagged_enum s d : named_variant s d -> exists c, read_enum d = Some (s, c) /\ unit_content c = true.
Proof. intros [-> | ->]; eexists; (split; [reflexivity|reflexivity]). Qed.

(** ** The types *)
Lemma c100_small : reads read_id is_id /\ reads read_method is_method /\ reads read_convolve_error is_convolve_error /\
  reads read_invalid_proof is_invalid_proof.
Proof.
  split; [exact reads_id|split; [|split]].
  - intros d []. unfold read_method, is_method. change method_name with "sha256t"%string. split.
    + destruct (read_enum d) as [[s c]|] eqn:E; [|discriminate]. destruct (String.eqb_spec s "sha256t") as [->|]; [|discriminate]. cbn [andb].
      destruct (unit_content c) eqn:U; [|discriminate]. intros _. eapply unit_tagged; eassumption.
    + intros T. apply tagged_enum in T as (c & E & U). rewrite E, U. reflexivity.
  - intros d x. unfold read_convolve_error, is_convolve_error.
    change (convolve_error_name CvCommitmentMismatch) with "commitmentMismatch"%string.
    change (convolve_error_name CvImpossibleMessage) with "impossibleMessage"%string.
    change (convolve_error_name CvInvalidProof) with "invalidProof"%string. split.
    + destruct (read_enum d) as [[s c]|] eqn:E; [|discriminate]. destruct (unit_content c) eqn:U; [|discriminate].
      pose proof (unit_tagged d s c E U) as T.
      destruct (String.eqb_spec s "commitmentMismatch") as [->|]; [intros Q; injection Q as <-; exact T|].
      destruct (String.eqb_spec s "impossibleMessage") as [->|]; [intros Q; injection Q as <-; exact T|].
      destruct (String.eqb_spec s "invalidProof") as [->|]; [intros Q; injection Q as <-; exact T|discriminate].
    + intros T. apply tagged_enum in T as (c & E & U). rewrite E, U. destruct x; reflexivity.
  - intros d x. unfold read_invalid_proof, is_invalid_proof.
    change invalid_proof_fields with ["protocolId"; "expected"; "actual"; "width"]%string. split.
    + destruct (read_struct _ d) as [vs|] eqn:E; [|discriminate]. apply struct_members in E; [|nodup].
      destruct vs as [|vp [|ve [|va [|vw [|]]]]]; try discriminate.
      destruct vp as [p|], ve as [e|], va as [a|], vw as [w|]; cbn [need];
        try (repeat match goal with |- context [match ?x with Some _ => _ | None => _ end] => destruct x end; discriminate).
      destruct (read_id p) eqn:R1, (read_uint 32 e) eqn:R2, (read_uint 32 a) eqn:R3, (read_uint 32 w) eqn:R4; try discriminate.
      intros Q. injection Q as <-. exists p, e, a, w. split; [exact E|].
      cbn. split; [apply reads_id, R1|split; [apply reads_num, R2|split; [apply reads_num, R3|apply reads_num, R4]]].
    + intros (p & e & a & w & M & I1 & I2 & I3 & I4). apply struct_members in M; [|nodup]. rewrite M. cbn [need].
      apply reads_id in I1. apply reads_num in I2, I3, I4. rewrite I1, I2, I3, I4. destruct x; reflexivity.
Qed.
Lemma reads_method : reads read_method is_method.
Proof. apply c100_small. Qed.

Lemma c100_node : forall ck, reads (read_tree_node ck) (is_node ck).
Proof.
  intros ck d x. unfold read_tree_node. split.
  - destruct (read_enum d) as [[s [c|]]|] eqn:E; try discriminate. apply reads_enum in E.
    destruct (String.eqb_spec s "ConcealedNode") as [->|].
    + destruct (read_struct _ c) as [vs|] eqn:S; [|discriminate]. apply struct_members in S; [|nodup].
      destruct vs as [|[dk|] [|[dh|] [|]]]; try discriminate; cbn [need]; [|destruct (read_u5 ck dk); discriminate].
      destruct (read_u5 ck dk) eqn:R1, (read_id dh) eqn:R2; try discriminate. intros Q. injection Q as <-.
      exists c, dk, dh. split; [exact E|split; [exact S|split; [apply reads_depth, R1|apply reads_id, R2]]].
    + destruct (String.eqb_spec s "CommitmentLeaf") as [->|]; [|discriminate].
      destruct (read_struct _ c) as [vs|] eqn:S; [|discriminate]. apply struct_members in S; [|nodup].
      destruct vs as [|[dk|] [|[dh|] [|]]]; try discriminate; cbn [need]; [|destruct (read_id dk); discriminate].
      destruct (read_id dk) eqn:R1, (read_id dh) eqn:R2; try discriminate. intros Q. injection Q as <-.
      exists c, dk, dh. split; [exact E|split; [exact S|split; [apply reads_id, R1|apply reads_id, R2]]].
  - destruct x as [k h|p m]; cbn [is_node].
    + intros (c & dk & dh & -> & M & I1 & I2). cbn [read_enum]. change (String.eqb "ConcealedNode" "ConcealedNode") with true. cbv iota.
      apply struct_members in M; [|nodup]. unfold concealed_fields. rewrite M. cbn [need]. apply reads_depth in I1. apply reads_id in I2. rewrite I1, I2. reflexivity.
    + intros (c & dk & dh & -> & M & I1 & I2). cbn [read_enum]. change (String.eqb "CommitmentLeaf" "ConcealedNode") with false.
      change (String.eqb "CommitmentLeaf" "CommitmentLeaf") with true. cbv iota.
      apply struct_members in M; [|nodup]. unfold leaf_fields. rewrite M. cbn [need]. apply reads_id in I1, I2. rewrite I1, I2. reflexivity.
Qed.
Lemma c100_concealed : forall ck, reads (read_concealed ck) (is_concealed ck).
Proof.
  intros ck d x. unfold read_concealed, is_concealed. change merkle_concealed_fields with ["depth"; "cofactor"; "merkleRoot"]%string. split.
  - destruct (read_struct _ d) as [vs|] eqn:E; [|discriminate]. apply struct_members in E; [|nodup].
    destruct vs as [|v1 [|v2 [|v3 [|]]]]; try discriminate.
    destruct (need (read_u5 ck) v1) eqn:R1; [|discriminate]. destruct (need (read_uint 16) v2) eqn:R2; [|discriminate]. destruct (need read_id v3) eqn:R3; [|discriminate].
    destruct v1 as [d1|], v2 as [d2|], v3 as [d3|]; try discriminate. cbn [need] in *. intros Q. injection Q as <-. exists d1, d2, d3.
    split; [exact E|split; [apply reads_depth, R1|split; [apply reads_num, R2|apply reads_id, R3]]].
  - intros (d1 & d2 & d3 & M & I1 & I2 & I3). apply struct_members in M; [|nodup]. rewrite M. cbn [need].
    apply reads_depth in I1. apply reads_num in I2. apply reads_id in I3. rewrite I1, I2, I3. destruct x; reflexivity.
Qed.
Lemma c100_block : forall ck, reads (read_block ck) (is_block ck).
Proof.
  intros ck d x. unfold read_block, is_block. change block_fields with ["method"; "depth"; "cofactor"; "cross_section"; "entropy"]%string.
  pose proof (reads_confined ck 1 (2 ^ 32 - 1) (read_tree_node ck) _ (c100_node ck)) as RC. split.
  - destruct (read_struct _ d) as [vs|] eqn:E; [|discriminate]. apply struct_members in E; [|nodup].
    destruct vs as [|v1 [|v2 [|v3 [|v4 [|v5 [|]]]]]]; try discriminate.
    destruct (need read_method v1) eqn:R1; [|discriminate]. destruct (need (read_u5 ck) v2) eqn:R2; [|discriminate].
    destruct (need (read_uint 16) v3) eqn:R3; [|discriminate]. destruct (need (read_confined _ _ _ _) v4) eqn:R4; [|discriminate].
    destruct (may _ v5) as [e|] eqn:R5; [|discriminate]. destruct v1 as [d1|], v2 as [d2|], v3 as [d3|], v4 as [d4|]; try discriminate. cbn [need] in *.
    intros Q. injection Q as <-. exists d1, d2, d3, d4, v5. cbn [mb_method mb_depth mb_cofactor mb_cross_section mb_entropy].
    apply RC in R4 as [I4 B4]. split; [exact E|split; [apply reads_method, R1|split; [apply reads_depth, R2|split; [apply reads_num, R3|split; [exact I4|split]]]]].
    + intros C. specialize (B4 C). lia.
    + destruct v5 as [d5|]; cbn [may] in R5; [|injection R5 as <-; left; reflexivity]. unfold read_option in R5. destruct d5 as [|n5|s5|l5|m5|]; try discriminate; [injection R5 as <-; right; reflexivity|].
      destruct (read_uint 64 (JNum n5)) eqn:R6; [|discriminate]. injection R5 as <-. eexists. split; [reflexivity|]. apply reads_num, R6.
  - intros (d1 & d2 & d3 & d4 & v5 & M & I1 & I2 & I3 & I4 & B4 & I5). apply struct_members in M; [|nodup]. rewrite M. cbn [need].
    apply reads_method in I1. apply reads_depth in I2. apply reads_num in I3. rewrite I1, I2, I3.
    assert (R4 : read_confined ck 1 (2 ^ 32 - 1) (read_tree_node ck) d4 = Some (mb_cross_section x)).
    { apply RC. split; [exact I4|]. intros C. specialize (B4 C). lia. }
    rewrite R4. assert (R5 : may (read_option (read_uint 64)) v5 = Some (mb_entropy x)).
    { destruct (mb_entropy x) as [e|]; [destruct I5 as (d5 & -> & I5)|destruct I5 as [-> | ->]; reflexivity].
      cbn [may]. unfold read_option. pose proof I5 as [-> _]. apply reads_num in I5. rewrite I5. reflexivity. }
    rewrite R5. destruct x; reflexivity.
Qed.
Lemma c100_proof : forall ck, reads (read_proof ck) (is_proof ck).
Proof.
  intros ck d x. unfold read_proof, is_proof. change proof_fields with ["method"; "pos"; "cofactor"; "path"]%string.
  pose proof (reads_confined ck 0 32 read_id _ reads_id) as RC. split.
  - destruct (read_struct _ d) as [vs|] eqn:E; [|discriminate]. apply struct_members in E; [|nodup].
    destruct vs as [|v1 [|v2 [|v3 [|v4 [|]]]]]; try discriminate.
    destruct (need read_method v1) eqn:R1; [|discriminate]. destruct (need (read_uint 32) v2) eqn:R2; [|discriminate].
    destruct (need (read_uint 16) v3) eqn:R3; [|discriminate]. destruct (need (read_confined _ _ _ _) v4) eqn:R4; [|discriminate].
    destruct v1 as [d1|], v2 as [d2|], v3 as [d3|], v4 as [d4|]; try discriminate. cbn [need] in *.
    intros Q. injection Q as <-. exists d1, d2, d3, d4. apply RC in R4 as [I4 B4].
    split; [exact E|split; [apply reads_method, R1|split; [apply reads_num, R2|split; [apply reads_num, R3|split; [exact I4|]]]]].
    intros C. specialize (B4 C). cbn [mp_path]. lia.
  - intros (d1 & d2 & d3 & d4 & M & I1 & I2 & I3 & I4 & B4). apply struct_members in M; [|nodup]. rewrite M. cbn [need].
    apply reads_method in I1. apply reads_num in I2, I3. rewrite I1, I2, I3.
    assert (R4 : read_confined ck 0 32 read_id d4 = Some (mp_path x)).
    { apply RC. split; [exact I4|]. intros C. specialize (B4 C). lia. }
    rewrite R4. destruct x; reflexivity.
Qed.
Lemma c100_status : forall A B C D (ra : doc -> option A) (rb : doc -> option B) (rc : doc -> option C) (rd : doc -> option D) ia ib ic id
  (issues : reads ra ia) (failures : reads rb ib) (warnings : reads rc ic) (infos : reads rd id),
  reads (read_status ra rb rc rd) (is_status ia ib ic id).
Proof.
  intros A B C D ra rb rc rd ia ib ic id Ra Rb Rc Rd d x. apply reads_vec in Ra, Rb, Rc, Rd.
  unfold read_status, is_status. change status_fields with ["seal_issues"; "failures"; "warnings"; "info"]%string. split.
  - destruct (read_struct _ d) as [vs|] eqn:E; [|discriminate]. apply struct_members in E; [|nodup].
    destruct vs as [|v1 [|v2 [|v3 [|v4 [|]]]]]; try discriminate.
    destruct (need (read_vec ra) v1) eqn:R1; [|discriminate]. destruct (need (read_vec rb) v2) eqn:R2; [|discriminate].
    destruct (need (read_vec rc) v3) eqn:R3; [|discriminate]. destruct (need (read_vec rd) v4) eqn:R4; [|discriminate].
    destruct v1 as [d1|], v2 as [d2|], v3 as [d3|], v4 as [d4|]; try discriminate. cbn [need] in *.
    intros Q. injection Q as <-. exists d1, d2, d3, d4. split; [exact E|split; [apply Ra, R1|split; [apply Rb, R2|split; [apply Rc, R3|apply Rd, R4]]]].
  - intros (d1 & d2 & d3 & d4 & M & I1 & I2 & I3 & I4). apply struct_members in M; [|nodup]. rewrite M. cbn [need].
    apply Ra in I1. apply Rb in I2. apply Rc in I3. apply Rd in I4. rewrite I1, I2, I3, I4. destruct x; reflexivity.
Qed.
Lemma c100_witness : forall P C (rp : doc -> option P) (rc : doc -> option C) ip ic (published : reads rp ip) (client : reads rc ic),
  reads (read_witness rp rc) (is_witness ip ic).
Proof.
  intros P C rp rc ip ic Rp Rc d x. unfold read_witness, is_witness. change witness_fields with ["published"; "client"]%string. split.
  - destruct (read_struct _ d) as [vs|] eqn:E; [|discriminate]. apply struct_members in E; [|nodup].
    destruct vs as [|v1 [|v2 [|]]]; try discriminate.
    destruct (need rp v1) eqn:R1; [|discriminate]. destruct (need rc v2) eqn:R2; [|discriminate].
    destruct v1 as [d1|], v2 as [d2|]; try discriminate. cbn [need] in *.
    intros Q. injection Q as <-. exists d1, d2. split; [exact E|split; [apply Rp, R1|apply Rc, R2]].
  - intros (d1 & d2 & M & I1 & I2). apply struct_members in M; [|nodup]. rewrite M. cbn [need].
    apply Rp in I1. apply Rc in I2. rewrite I1, I2. destruct x; reflexivity.
Qed.

(** ** What is written *)
Lemma c100_written :
  (forall b, write_block b = JMap [("method", JText "sha256t"); ("depth", JNum (N.of_nat (mb_depth b))); ("cofactor", JNum (mb_cofactor b));
     ("cross_section", JList (map (fun n => match n with
        | ConcealedNode d h => JMap [("ConcealedNode", JMap [("depth", JNum (N.of_nat d)); ("hash", JText (id_text h))])]
        | CommitmentLeaf p m => JMap [("CommitmentLeaf", JMap [("protocol_id", JText (id_text p)); ("message", JText (id_text m))])] end)
        (mb_cross_section b)));
     ("entropy", match mb_entropy b with Some e => JNum e | None => JNull end)]%string) /\
  (forall p, write_proof p = JMap [("method", JText "sha256t"); ("pos", JNum (mp_pos p)); ("cofactor", JNum (mp_cofactor p));
     ("path", JList (map (fun h => JText (id_text h)) (mp_path p)))]%string) /\
  (forall c, write_concealed c = JMap [("depth", JNum (N.of_nat (mc_depth c))); ("cofactor", JNum (mc_cofactor c));
     ("merkleRoot", JText (id_text (mc_merkle_root c)))]%string) /\
  (forall e, write_invalid_proof e = JMap [("protocolId", JText (id_text (ip_protocol_id e))); ("expected", JNum (ip_expected e));
     ("actual", JNum (ip_actual e)); ("width", JNum (ip_width e))]%string) /\
  (forall e, write_convolve_error e = JText match e with CvCommitmentMismatch => "commitmentMismatch" | CvImpossibleMessage => "impossibleMessage"
     | CvInvalidProof => "invalidProof" end).
Proof. split; [|split; [|split; [|split]]]; [intros [[] ? ? ? []]|intros [[] ? ? ?]|intros []|intros []|intros []]; reflexivity. Qed.

Lemma wrote_id x : is_id x (write_id x).
Proof. apply reads_id, c87_roundtrip. Qed.
Lemma wrote_list {A} (w : A -> doc) is l : Forall (fun x => is x (w x)) l -> is_list is l (JList (map w l)).
Proof. intros F. exists (map w l). split; [reflexivity|]. induction F; constructor; assumption. Qed.
Ltac here := cbn; repeat constructor.
Lemma wrote_node ck n : valid_tree_node n -> is_node ck n (write_tree_node n).
Proof.
  destruct n as [d h|p m]; cbn [valid_tree_node is_node write_tree_node].
  - intros L. eexists _, _, _. split; [reflexivity|split; [here|split; [|apply wrote_id]]]. split; [reflexivity|destruct ck; lia].
  - intros _. eexists _, _, _. split; [reflexivity|split; [here|split; apply wrote_id]].
Qed.
(** Every value of the Rust types is read back, whether or not foreign types check their bounds. *)
Lemma c100_back : forall ck,
  (forall b (valid : valid_block b), read_block ck (write_block b) = Some b) /\
  (forall p (valid : valid_proof p), read_proof ck (write_proof p) = Some p) /\
  (forall c (valid : valid_concealed c), read_concealed ck (write_concealed c) = Some c) /\
  (forall n (valid : valid_tree_node n), read_tree_node ck (write_tree_node n) = Some n) /\
  (forall p e a w (expected : (e < 2 ^ 32)%N) (actual : (a < 2 ^ 32)%N) (width : (w < 2 ^ 32)%N),
     read_invalid_proof (write_invalid_proof (InvalidProof p e a w)) = Some (InvalidProof p e a w)) /\
  (forall e, read_convolve_error (write_convolve_error e) = Some e) /\ (forall x, read_id (write_id x) = Some x) /\
  (forall m, read_method (write_method m) = Some m).
Proof.
  intros ck. split; [|split; [|split; [|split; [|split; [|split; [|split]]]]]].
  - intros b (V1 & V2 & V3 & V4 & V5). apply c100_block. eexists _, _, _, _, (Some (write_option JNum (mb_entropy b))). split; [here|].
    split; [destruct (mb_method b); left; reflexivity|split; [split; [reflexivity|destruct ck; lia]|split; [split; [reflexivity|exact V2]|split; [|split]]]].
    + apply wrote_list. eapply Forall_impl; [|exact V4]. intros n V. apply wrote_node, V.
    + intros _. exact V3.
    + destruct (mb_entropy b) as [e|]; [|right; reflexivity]. eexists. split; [reflexivity|]. split; [reflexivity|exact V5].
  - intros p (V1 & V2 & V3). apply c100_proof. eexists _, _, _, _. split; [here|].
    split; [destruct (mp_method p); left; reflexivity|split; [split; [reflexivity|exact V1]|split; [split; [reflexivity|exact V2]|split; [|intros _; exact V3]]]].
    apply wrote_list. apply Forall_forall. intros x _. apply wrote_id.
  - intros c (V1 & V2). apply c100_concealed. eexists _, _, _. split; [here|].
    split; [split; [reflexivity|destruct ck; lia]|split; [split; [reflexivity|exact V2]|apply wrote_id]].
  - intros n V. apply c100_node, wrote_node, V.
  - intros p e a w V1 V2 V3. apply c100_small. eexists _, _, _, _. split; [here|].
    split; [apply wrote_id|split; [split; [reflexivity|exact V1]|split; [split; [reflexivity|exact V2]|split; [reflexivity|exact V3]]]].
  - intros []; reflexivity.
  - apply c87_roundtrip.
  - intros []. reflexivity.
Qed.
Lemma c100_back_report : forall A B C D (wa : A -> doc) (wb : B -> doc) (wc : C -> doc) (wd : D -> doc) ra rb rc rd
  (issues : forall x, ra (wa x) = Some x) (failures : forall x, rb (wb x) = Some x) (warnings : forall x, rc (wc x) = Some x)
  (infos : forall x, rd (wd x) = Some x),
  (forall s : @status A B C D, read_status ra rb rc rd (write_status wa wb wc wd s) = Some s) /\
  (forall w : A * B, read_witness ra rb (write_witness wa wb w) = Some w).
Proof.
  intros A B C D wa wb wc wd ra rb rc rd Ra Rb Rc Rd. split.
  - intros s. apply (c100_status A B C D ra rb rc rd (fun x d => ra d = Some x) (fun x d => rb d = Some x) (fun x d => rc d = Some x) (fun x d => rd d = Some x)); try (intros d x; tauto).
    eexists _, _, _, _. split; [here|]. split; [|split; [|split]]; apply wrote_list; apply Forall_forall; auto.
  - intros w. apply (c100_witness A B ra rb (fun x d => ra d = Some x) (fun x d => rb d = Some x)); try (intros d x; tauto).
    eexists _, _. split; [here|]. split; [apply Ra|apply Rb].
Qed.

(** ** What may be read *)
Lemma list_all {A} (is : A -> doc -> Prop) (good : A -> Prop) l d : (forall x d, is x d -> good x) -> is_list is l d -> Forall good l.
Proof. intros G (ds & _ & F). induction F; constructor; eauto. Qed.
Lemma node_valid n d : is_node true n d -> valid_tree_node n.
Proof. destruct n; [|intros _; exact I]. intros (_ & ? & ? & _ & _ & [_ L] & _). cbn [valid_tree_node]. lia. Qed.
(** If foreign types check their bounds, whatever is read is a value which strict decoding yields too. *)
Lemma c100_valid :
  (forall d b, read_block true d = Some b -> valid_block b) /\ (forall d p, read_proof true d = Some p -> valid_proof p) /\
  (forall d c, read_concealed true d = Some c -> valid_concealed c) /\ (forall d n, read_tree_node true d = Some n -> valid_tree_node n).
Proof.
  split; [|split; [|split]].
  - intros d b R. apply c100_block in R as (? & ? & ? & ? & de & _ & _ & [_ L] & [_ C] & X & B & E).
    split; [lia|split; [exact C|split; [apply B; reflexivity|split; [eapply list_all; [exact node_valid|exact X]|]]]].
    destruct (mb_entropy b); [|exact I]. destruct E as (y & _ & _ & E). exact E.
  - intros d p R. apply c100_proof in R as (? & ? & ? & ? & _ & _ & [_ L] & [_ C] & _ & B). split; [exact L|split; [exact C|apply B; reflexivity]].
  - intros d c R. apply c100_concealed in R as (? & ? & ? & _ & [_ L] & [_ C] & _). split; [lia|exact C].
  - intros d n R. apply c100_node in R. eapply node_valid, R.
Qed.
(** If they do not, other values are read. *)
Lemma c100_unchecked_refuted : exists d b d' p, read_block false d = Some b /\ mb_depth b = 255 /\ mb_cross_section b = [] /\ ~ valid_block b /\
  read_proof false d' = Some p /\ length (mp_path p) = 33 /\ ~ valid_proof p.
Proof.
  exists (JList [JText "sha256t"; JNum 255; JNum 7; JList []; JNull]), (MBlock Sha256t 255 7 [] None).
  exists (JList [JText "sha256t"; JNum 0; JNum 7; JList (repeat (write_id (b32_fill x00)) 33)]), (MProof Sha256t 0 7 (repeat (b32_fill x00) 33)).
  split; [reflexivity|split; [reflexivity|split; [reflexivity|split; [|split; [|split; [reflexivity|]]]]]].
  - intros (L & _). cbn [mb_depth] in L. lia.
  - vm_compute. reflexivity.
  - intros (_ & _ & L). cbn [mp_path] in L. rewrite repeat_length in L. lia.
Qed.
(** The order of the members does not matter, nor do members with other names. *)
Definition same_members (names : list string) (es es' : list (string * doc)) : Prop :=
  forall k, In k names -> given k es = given k es'.
Lemma same_read names es es' : NoDup names -> same_members names es es' -> read_struct names (JMap es) = read_struct names (JMap es').
Proof.
  intros ND SM.
  assert (E : forall vals, read_struct names (JMap es) = Some vals <-> read_struct names (JMap es') = Some vals).
  { intros vals. rewrite !struct_members by exact ND. cbn [members]. assert (G : forall l, incl l names -> forall vs,
      Forall2 (fun k v => given k es = one v) l vs <-> Forall2 (fun k v => given k es' = one v) l vs).
    { induction l as [|k l IH]; intros Il vs; [split; intros F; inversion F; constructor|].
      assert (Q : given k es = given k es') by (apply SM, Il; left; reflexivity).
      assert (Il' : incl l names) by (intros x Ix; apply Il; right; exact Ix).
      split; intros F; inversion F; subst; constructor; try congruence; apply (IH Il'); assumption. }
    apply (G names); apply incl_refl. }
  destruct (read_struct names (JMap es)) as [v|] eqn:A, (read_struct names (JMap es')) as [v'|] eqn:B; try reflexivity.
  - symmetry. apply E. reflexivity.
  - pose proof (proj1 (E v) eq_refl). discriminate.
  - pose proof (proj2 (E v') eq_refl). discriminate.
Qed.
Lemma given_perm k es es' : Permutation es es' -> Permutation (given k es) (given k es').
Proof.
  intros P. unfold given. apply Permutation_map. induction P; cbn [filter].
  - constructor.
  - destruct (String.eqb k (fst x)); [apply perm_skip|]; assumption.
  - destruct (String.eqb k (fst x)), (String.eqb k (fst y)); try apply perm_swap; apply Permutation_refl.
  - eapply Permutation_trans; eassumption.
Qed.
Lemma short_perm {A} (l l' : list A) v : Permutation l l' -> l = one v -> l' = one v.
Proof.
  intros P ->. destruct v as [x|]; cbn [one] in *; [apply Permutation_length_1_inv, P|apply Permutation_nil, P].
Qed.
Lemma perm_read names es es' : NoDup names -> Permutation es es' -> read_struct names (JMap es) = read_struct names (JMap es').
Proof.
  intros ND P.
  assert (E : forall es es', Permutation es es' -> forall vals, read_struct names (JMap es) = Some vals -> read_struct names (JMap es') = Some vals).
  { clear P es es'. intros es es' P vals. rewrite !struct_members by exact ND. cbn [members]. intros F.
    clear - F P. induction F as [|k v ks vs G F IH]; constructor; [|exact IH]. eapply short_perm; [apply (given_perm k), P|exact G]. }
  destruct (read_struct names (JMap es)) as [v|] eqn:A.
  - symmetry. eapply E; [exact P|exact A].
  - destruct (read_struct names (JMap es')) as [v'|] eqn:B; [|reflexivity].
    apply Permutation_sym in P. rewrite (E _ _ P _ B) in A. discriminate.
Qed.
Lemma c100_order : forall ck es es' (shuffled : Permutation es es'),
  read_block ck (JMap es) = read_block ck (JMap es') /\ read_proof ck (JMap es) = read_proof ck (JMap es') /\
  read_concealed ck (JMap es) = read_concealed ck (JMap es') /\ read_invalid_proof (JMap es) = read_invalid_proof (JMap es').
Proof.
  intros ck es es' P. unfold read_block, read_proof, read_concealed, read_invalid_proof.
  rewrite (perm_read block_fields es es'), (perm_read proof_fields es es'), (perm_read merkle_concealed_fields es es'), (perm_read invalid_proof_fields es es');
    try exact P; try nodup; auto.
Qed.
Lemma c100_unknown : forall ck es1 es2 k v,
  (~ In k ["method"; "depth"; "cofactor"; "cross_section"; "entropy"]%string -> read_block ck (JMap (es1 ++ (k, v) :: es2)) = read_block ck (JMap (es1 ++ es2))) /\
  (~ In k ["method"; "pos"; "cofactor"; "path"]%string -> read_proof ck (JMap (es1 ++ (k, v) :: es2)) = read_proof ck (JMap (es1 ++ es2))).
Proof.
  intros ck es1 es2 k v.
  assert (G : forall names, ~ In k names -> same_members names (es1 ++ (k, v) :: es2) (es1 ++ es2)).
  { intros names NI k' I. unfold given. rewrite !filter_app. cbn [filter fst]. destruct (String.eqb_spec k' k) as [->|]; [destruct (NI I)|reflexivity]. }
  split; intros NI; [unfold read_block|unfold read_proof]; (rewrite (same_read _ (es1 ++ (k, v) :: es2) (es1 ++ es2)); [reflexivity|nodup|exact (G _ NI)]).
Qed.
(** A member given twice is refused, as is a block without one of its members, except the entropy. *)
Lemma refused_twice ck k v w es : In k ["method"; "depth"; "cofactor"; "cross_section"; "entropy"]%string ->
  read_block ck (JMap ((k, v) :: (k, w) :: es)) = None.
Proof.
  intros Ik.
  destruct (read_block ck _) as [b|] eqn:R; [|reflexivity]. exfalso. apply c100_block in R as (d1 & d2 & d3 & d4 & d5 & M & _). cbn [members] in M.
    destruct Ik as [<-|[<-|[<-|[<-|[<-|[]]]]]]; repeat match goal with H : Forall2 _ (_ :: _) _ |- _ => inversion H; clear H; subst end;
      repeat match goal with H : map snd (filter _ _) = _ |- _ => cbn in H end; try discriminate; destruct d5; discriminate.
Qed.
Lemma c100_refused : forall ck k v w es1 es2 es3 es (named : In k ["method"; "depth"; "cofactor"; "cross_section"; "entropy"]%string),
  read_block ck (JMap (es1 ++ (k, v) :: es2 ++ (k, w) :: es3)) = None /\
  (k <> "entropy"%string -> (forall x, ~ In (k, x) es) -> read_block ck (JMap es) = None) /\
  (k = "entropy"%string -> (forall x, ~ In (k, x) es) -> forall b, read_block ck (JMap es) = Some b -> mb_entropy b = None).
Proof.
  intros ck k v w es1 es2 es3 es Ik. split; [|split].
  - rewrite <- (refused_twice ck k v w (es1 ++ es2 ++ es3) Ik). apply c100_order. rewrite <- Permutation_middle. apply perm_skip.
    rewrite !app_assoc. rewrite <- Permutation_middle. apply Permutation_refl.
  - intros Ne A. destruct (read_block ck _) as [b|] eqn:R; [|reflexivity]. exfalso. apply c100_block in R as (d1 & d2 & d3 & d4 & d5 & M & _). cbn [members] in M.
    assert (G : map snd (filter (fun e => String.eqb k (fst e)) es) = []).
    { clear - A. induction es as [|[k' x] es IH]; [reflexivity|]. cbn [filter fst]. destruct (String.eqb_spec k k') as [->|].
      - destruct (A x). left. reflexivity.
      - apply IH. intros y I. apply (A y). right. exact I. }
    destruct Ik as [<-|[<-|[<-|[<-|[<-|[]]]]]]; repeat match goal with H : Forall2 _ (_ :: _) _ |- _ => inversion H; clear H; subst end; congruence.
  - intros -> A b R. apply c100_block in R as (d1 & d2 & d3 & d4 & d5 & M & _ & _ & _ & _ & _ & E). cbn [members] in M.
    assert (G : map snd (filter (fun e => String.eqb "entropy" (fst e)) es) = []).
    { clear - A. induction es as [|[k' x] es IH]; [reflexivity|]. cbn [filter fst]. destruct (String.eqb_spec "entropy" k') as [<-|].
      - destruct (A x). left. reflexivity.
      - apply IH. intros y I. apply (A y). right. exact I. }
    repeat match goal with H : Forall2 _ (_ :: _) _ |- _ => inversion H; clear H; subst end.
    destruct (mb_entropy b); [|reflexivity]. destruct E as (x & -> & _). congruence.
Qed.
(** Unlike strict encodings, documents are not canonical. *)
Lemma c100_canonical_refuted : exists d p, read_proof true d = Some p /\ d <> write_proof p.
Proof.
  exists (JList [JText "sha256t"; JNum 0; JNum 7; JList []]), (MProof Sha256t 0 7 []). split; [reflexivity|discriminate].
Qed.
(** Through serde and strict encoding alike *)
Lemma c100_strict : forall d b bytes rest (read : read_block true d = Some b) (strict : enc c_merkle_block b = bytes),
  dec c_merkle_block (bytes ++ rest) = Some (b, rest) /\ read_block true (write_block b) = Some b.
Proof.
  intros d b bytes rest R <-. pose proof (proj1 c100_valid d b R) as V. split; [apply (law_rt _ _ c_merkle_block_lawful), V|apply c100_back, V].
Qed.
