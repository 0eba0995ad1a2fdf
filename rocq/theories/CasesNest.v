(** Cases for TheoremsNest.v *)
From Verif Require Import Base BaseFacts OrdMap Digest Merkle MpcAtoms MpcTree MpcBlock Engine Seals Api Strict.
From Verif Require Import SpecHash SpecTree SpecMerkle SpecFull SpecValid SpecFind SpecQuery SpecCommit SpecCodec SpecEngine SpecEnd SpecGame SpecTarget SpecIdGame SpecLate SpecNest.
From Verif Require Import StrictProofs CodecProofs TheoremsMpc TheoremsMerkle TheoremsMisc TheoremsQuery TheoremsGame TheoremsEnd TheoremsIdGame TheoremsLate TheoremsNest.
From Verif Require Import CasesMpc CasesMisc CasesMore CasesExt CasesLocal CasesGame CasesEnd CasesIdGame.
Local Open Scope nat_scope.

(** A number; a number, a value and a collection of values; and a value holding such a value *)
Definition small_value (a : N) : composite := Composite (str "leaf") [Plain (FSerialized u8t a)].
Definition large_value (a b : N) (cs : list N) : composite :=
  Composite (str "outer") [Plain (FSerialized u8t a); Inner idt (small_value b); Inners idt (map small_value cs)].
Definition deep_value (a b : N) (cs : list N) : composite := Composite (str "deep") [Inner idt (large_value a b cs); Plain (FSerialized u8t a)].

Lemma small_ok md a : committable md (small_value a).
Proof.
  constructor; [cbn; lia| |apply Forall_nil]. apply Forall_cons; [|apply Forall_nil]. split; [|intros _; split; discriminate].
  eexists. exists (Fqn "Lib" "U8"). split; reflexivity.
Qed.
Lemma smalls_ok md cs : Forall (committable md) (map small_value cs).
Proof. rewrite Forall_forall. intros x I. apply in_map_iff in I as (c & <- & _). apply small_ok. Qed.
Lemma large_ok md a b cs : (N.of_nat (length cs) < 2 ^ 32)%N -> committable md (large_value a b cs).
Proof.
  intros B. constructor; [cbn; lia| |].
  - apply Forall_cons; [|apply Forall_cons; [|apply Forall_cons; [|apply Forall_nil]]].
    + split; [|intros _; split; discriminate]. eexists. exists (Fqn "Lib" "U8"). split; reflexivity.
    + exists (Fqn "Lib" "Id"). reflexivity.
    + split; [exists (Fqn "Lib" "Id"); reflexivity|rewrite map_length; exact B].
  - unfold kids. cbn. rewrite app_nil_r. apply Forall_cons; [apply small_ok|apply smalls_ok].
Qed.
Lemma deep_ok md a b cs : (N.of_nat (length cs) < 2 ^ 32)%N -> committable md (deep_value a b cs).
Proof.
  intros B. constructor; [cbn; lia| |].
  - apply Forall_cons; [|apply Forall_cons; [|apply Forall_nil]]; [exists (Fqn "Lib" "Id"); reflexivity|].
    split; [|intros _; split; discriminate]. eexists. exists (Fqn "Lib" "U8"). split; reflexivity.
  - apply Forall_cons; [apply large_ok, B|apply Forall_nil].
Qed.
Lemma small_alike a b : (a < 256)%N -> (b < 256)%N -> resembles (small_value a) (small_value b).
Proof. intros A B. constructor. constructor; [|constructor]. constructor. apply (sk_serialized N u8t _ a b (c_le_lawful 1)); [exact A|exact B]. Qed.
Lemma large_alike a b cs a' b' cs' : (a < 256)%N -> (a' < 256)%N -> (b < 256)%N -> (b' < 256)%N -> Forall (fun c => c < 256)%N (cs ++ cs') ->
  resembles (large_value a b cs) (large_value a' b' cs').
Proof.
  intros A A' B B' C. rewrite Forall_app, !Forall_forall in C. constructor. constructor; [|constructor; [|constructor; [|constructor]]].
  - constructor. apply (sk_serialized N u8t _ a a' (c_le_lawful 1)); assumption.
  - constructor. apply small_alike; assumption.
  - constructor.
    + right. intros x I. rewrite <- map_app in I. apply in_map_iff in I as (c & <- & _). discriminate.
    + intros x y I J. apply in_map_iff in I as (c & <- & I). apply in_map_iff in J as (c' & <- & J). apply small_alike; [apply (proj1 C), I|apply (proj2 C), J].
Qed.
Lemma deep_alike a b cs a' b' cs' : (a < 256)%N -> (a' < 256)%N -> (b < 256)%N -> (b' < 256)%N -> Forall (fun c => c < 256)%N (cs ++ cs') ->
  resembles (deep_value a b cs) (deep_value a' b' cs').
Proof.
  intros A A' B B' C. constructor. constructor; [|constructor; [|constructor]].
  - constructor. apply large_alike; assumption.
  - constructor. apply (sk_serialized N u8t _ a a' (c_le_lawful 1)); assumption.
Qed.
Ltac bytes_ok := repeat (apply Forall_cons; [reflexivity|]); apply Forall_nil.

Section Flat.
Context (U : list (list byte)).
Let H : Hasher := table U (map flat U).
Lemma flat_id md v : committable md v -> @composite_id H md v = Ret cflat.
Proof.
  intros C. destruct (proj2 (@c110_defined H md v) C) as [id E]. rewrite E. f_equal. destruct v as [tag ps].
  destruct (@composite_inv H md tag ps id E) as (fs & e & bs & _ & _ & _ & _ & ->). apply flat_table.
Qed.
Lemma small_lowers md a : Forall2 (@lowers H md) [Plain (FSerialized u8t a)] [FSerialized u8t a].
Proof. repeat constructor. Qed.
Lemma small_handy md k a : @handy H md 162 k (small_value a).
Proof.
  apply (hy_node md 162 k _ _ [FSerialized u8t a]); [apply small_lowers|cbn; lia| |apply Forall_nil].
  split; [cbn; lia|]. exists [enc (c_le 1) a]. split; [repeat constructor|]. unfold s_pre. rewrite !app_length, !b32_length. cbn. lia.
Qed.
Lemma flat_root ls : length ls <> 1 -> @merkle_root_of H ls cflat.
Proof.
  intros L. replace cflat with (@mthash H (N.of_nat (length ls)) 0 (halves (length ls) ls)).
  - apply (@root_tree H); [exact L|apply halves_splits, le_n].
  - destruct (halves (length ls) ls); cbn [mthash]; apply flat_table.
Qed.
Lemma flat_root1 c : c = cflat -> @merkle_root_of H [c] cflat.
Proof. intros ->. constructor. Qed.
Lemma large_handy md a b cs : length cs <= 3 -> @handy H md 162 8 (large_value a b cs).
Proof.
  intros L. apply (hy_node md 162 8 _ _ [FSerialized u8t a; FHash idt cflat; FMerkle idt (map (fun _ => cflat) cs)]).
  - constructor; [constructor|constructor; [constructor; apply flat_id, small_ok|constructor; [constructor|constructor]]].
    clear L. induction cs as [|c cs IH]; cbn; constructor; [apply flat_id, small_ok|exact IH].
  - cbn. lia.
  - split; [cbn [hash_work]; rewrite map_length; lia|]. exists [enc (c_le 1) a; b32 cflat; b32 cflat]. split.
    + constructor; [reflexivity|constructor; [reflexivity|constructor; [|constructor]]]. exists cflat. split; [|reflexivity].
      destruct cs as [|c [|c' cs]]; [apply flat_root; discriminate|apply flat_root1; reflexivity|apply flat_root; discriminate].
    + unfold s_pre. rewrite !app_length, !b32_length. vm_compute. lia.
  - unfold kids. cbn. rewrite app_nil_r. constructor; [apply small_handy|]. rewrite Forall_forall. intros x I.
    apply in_map_iff in I as (c & <- & _). apply small_handy.
Qed.
Lemma deep_handy md a b cs : length cs <= 3 -> @handy H md 162 8 (deep_value a b cs).
Proof.
  intros L. apply (hy_node md 162 8 _ _ [FHash idt cflat; FSerialized u8t a]).
  - constructor; [constructor; apply flat_id, large_ok; lia|constructor; [constructor|constructor]].
  - cbn. lia.
  - split; [cbn; lia|]. exists [b32 cflat; enc (c_le 1) a]. split; [repeat constructor|].
    unfold s_pre. rewrite !app_length, !b32_length. vm_compute. lia.
  - apply Forall_cons; [apply large_handy, L|apply Forall_nil].
Qed.
End Flat.

Lemma c110_model_case : exists (I : commit_encode (N * N)) (parts : N * N -> list (part composite)),
  (forall v e, @ce_encode _ I Debug v e = @feed_parts toy _ Debug (@composite_id toy Debug) (parts v) e) /\
  exists id, @commit_id toy _ Debug I (5%N, 6%N) = Ret id.
Proof.
  exists (CommitEncode (str "pair") idt (fun md v e => @feed_parts toy _ md (@composite_id toy md) [Inner idt (small_value (fst v)); Inners idt [small_value (snd v); small_value 7]] e)),
    (fun v => [Inner idt (small_value (fst v)); Inners idt [small_value (snd v); small_value 7]]).
  split; [reflexivity|]. eexists. vm_compute. reflexivity.
Qed.
Lemma c110_defined_case : committable Debug (deep_value 1 2 [3; 4; 5]%N) /\ ~ committable Debug (Composite [] (repeat (Plain (FSerialized u8t 1%N)) 256)) /\
  @composite_id toy Debug (Composite [] [Inner (SType "Lib" None) (small_value 1)]) = Panic PExpect.
Proof.
  split; [apply deep_ok; reflexivity|split; [|vm_compute; reflexivity]]. intros C. inversion C as [t0 ps0 L F0 K0 E0]. clear -L. vm_compute in L. lia.
Qed.
Lemma c110_strings_case : exists id, @composite_id toy Debug (deep_value 1 2 [3; 4; 5]%N) = Ret id.
Proof. apply c110_defined, deep_ok. reflexivity. Qed.
(** Three items against one, three levels down, under a constant hash function *)
Lemma c110_extract_case : let v := deep_value 1 2 [3; 4; 5]%N in let w := deep_value 1 9 [7]%N in
  v <> w /\ resembles v w /\ exists id L L', @composite_id flat Debug v = Ret id /\ @composite_id flat Release w = Ret id /\
    @hashes flat Debug v L /\ @hashes flat Release w L'.
Proof.
  cbv zeta. split; [|split; [apply deep_alike; [reflexivity..|bytes_ok]|]].
  - intros E. apply (f_equal nodes) in E. vm_compute in E. discriminate E.
  - destruct (@c110_defined flat Debug (deep_value 1 2 [3; 4; 5]%N)) as [_ D1]. destruct D1 as [i E1]; [apply deep_ok; reflexivity|].
    destruct (@c110_defined flat Release (deep_value 1 9 [7]%N)) as [_ D2]. destruct D2 as [j E2]; [apply deep_ok; reflexivity|].
    destruct (@c110_strings flat Debug _ _ E1) as [L HL]. destruct (@c110_strings flat Release _ _ E2) as [L' HL'].
    exists i, L, L'. split; [exact E1|split; [|split; assumption]]. rewrite E2. f_equal.
    pose proof (@composite_inv flat _ _ _ _ E1) as X1. pose proof (@composite_inv flat _ _ _ _ E2) as X2. clear -X1 X2.
    destruct X1 as (f1 & e1 & b1 & _ & _ & _ & _ & Q1), X2 as (f2 & e2 & b2 & _ & _ & _ & _ & Q2). rewrite Q1, Q2. reflexivity.
Qed.

Definition two_values : prog (composite * composite) := Ask [x01] (fun _ => Done (deep_value 1 2 [3; 4; 5]%N, deep_value 1 9 [7]%N)).
Lemma c110_forged_case : exists U, universe 162 U /\ modest 162 1 two_values /\
  exists f v w, length f = length U /\ exec (table U f) two_values = (v, w) /\ v <> w /\ resembles v w /\ nodes v + nodes w <= 10 /\
    @handy (table U f) Debug 162 8 v /\ @handy (table U f) Release 162 8 w /\
    @composite_id (table U f) Debug v = Ret cflat /\ @composite_id (table U f) Release w = Ret cflat.
Proof.
  destruct (all_strings 162) as [U UU]. exists U. split; [exact UU|split; [cbn; split; [lia|intros; exact I]|]].
  exists (map flat U), (deep_value 1 2 [3; 4; 5]%N), (deep_value 1 9 [7]%N). destruct c110_extract_case as (D & R & _).
  split; [apply flat_list|split; [reflexivity|split; [exact D|split; [exact R|split; [vm_compute; lia|]]]]].
  split; [apply deep_handy; cbn; lia|split; [apply deep_handy; cbn; lia|split; apply flat_id, deep_ok; reflexivity]].
Qed.
Definition other_value : prog composite := Ask [x01] (fun _ => Done (deep_value 1 9 [7]%N)).
Lemma c110_replaced_case : exists U, universe 162 U /\ modest 162 1 other_value /\
  exists f v w, length f = length U /\ exec (table U f) other_value = w /\ In v [small_value 1; deep_value 1 2 [3; 4; 5]%N] /\ v <> w /\ resembles v w /\ nodes w <= 4 /\
    @handy (table U f) Debug 162 8 v /\ @handy (table U f) Release 162 8 w /\
    @composite_id (table U f) Debug v = Ret cflat /\ @composite_id (table U f) Release w = Ret cflat.
Proof.
  destruct c110_forged_case as (U & UU & _ & f & v & w & Lf & E & D & R & B & H1 & H2 & E1 & E2). injection E as <- <-.
  exists U. split; [exact UU|split; [cbn; split; [lia|intros; exact I]|]].
  exists f, (deep_value 1 2 [3; 4; 5]%N), (deep_value 1 9 [7]%N).
  split; [exact Lf|split; [reflexivity|split; [right; left; reflexivity|split; [exact D|split; [exact R|split; [vm_compute; lia|auto]]]]]].
Qed.
Lemma c110_numbers_case : modest 162 1 two_values /\ (N.of_nat 1 <= 2 ^ 100)%N /\ (N.of_nat 10 <= 2 ^ 40)%N /\ (N.of_nat 8 <= 2 ^ 40)%N.
Proof. split; [cbn; split; [lia|intros; exact I]|repeat split; vm_compute; discriminate]. Qed.
Lemma c110_wrapped_case : exists id, @composite_id toy Debug (Composite (str "x") ([Plain (FSerialized u8t 1%N)] ++ Inner idt (small_value 3) :: [])) = Ret id /\
  @composite_id toy Debug (Composite (str "x") ([Plain (FSerialized u8t 1%N)] ++ Inners idt [small_value 3] :: [])) = Ret id.
Proof. eexists. split; vm_compute; reflexivity. Qed.
Lemma c110_node_tag_case : (exists q, has_fqn idt q) /\ (exists q, has_fqn (ty u8t) q) /\ ty_codec u8t = c_le 1 /\ not_reserved_type (ty u8t) /\
  committable Debug (small_value 1) /\ committable Debug (large_value 1 2 [3]%N) /\ small_value 1 <> large_value 1 2 [3]%N.
Proof.
  split; [exists (Fqn "Lib" "Id"); reflexivity|split; [exists (Fqn "Lib" "U8"); reflexivity|split; [reflexivity|split; [split; discriminate|]]]].
  split; [apply small_ok|split; [apply large_ok; reflexivity|discriminate]].
Qed.
