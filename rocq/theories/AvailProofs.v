(** At most ten messages always fit: a counting argument over the widths 2^31 - c, c <= 500. *)
From Coq Require Import Sorting.Permutation.
From Verif Require Import Base BaseFacts OrdMap OrdMapFacts SpecCommit SpecValid MpcAtoms MpcTree MpcTreeProofs.
Local Open Scope N_scope.

(** ** Divisibility *)
Lemma coprime_mul a b c : N.gcd a c = 1 -> N.gcd b c = 1 -> N.gcd (a * b) c = 1.
Proof.
  intros A B. set (g := N.gcd (a * b) c).
  assert (Gc : N.divide g c) by apply N.gcd_divide_r.
  assert (Ga : N.gcd g a = 1).
  { apply N.divide_1_r. rewrite <- A. apply N.gcd_greatest; [apply N.gcd_divide_r|].
    eapply N.divide_trans; [apply N.gcd_divide_l|exact Gc]. }
  assert (Gb : N.divide g b) by (apply (N.gauss g a b); [apply N.gcd_divide_l|exact Ga]).
  apply N.divide_1_r. rewrite <- B. apply N.gcd_greatest; assumption.
Qed.
Lemma coprime_divides a b q : N.gcd a b = 1 -> N.divide a q -> N.divide b q -> N.divide (a * b) q.
Proof.
  intros G [x ->] B. rewrite (N.mul_comm x a). apply N.mul_divide_mono_l.
  apply (N.gauss b a x); [rewrite N.mul_comm; exact B|rewrite N.gcd_comm; exact G].
Qed.

Definition prod (l : list N) : N := fold_right N.mul 1 l.

Lemma prod_divides l q : ForallOrdPairs (fun a b => N.gcd a b = 1) l -> Forall (fun a => N.divide a q) l ->
  N.divide (prod l) q.
Proof.
  intros P. induction P as [|a l Pa P IH]; intros F; [apply N.divide_1_l|].
  apply Forall_cons_iff in F as [Fa F]. cbn [prod fold_right]. apply coprime_divides; [|exact Fa|apply IH, F].
  clear -Pa. induction Pa as [|b l Gb Pa IH]; [apply N.gcd_1_r|]. cbn [fold_right].
  rewrite N.gcd_comm. apply coprime_mul; rewrite N.gcd_comm; assumption.
Qed.
Lemma prod_in l a : In a l -> N.divide a (prod l).
Proof.
  induction l as [|b l IH]; intros I; [destruct I|]. destruct I as [<-|I]; cbn [prod fold_right].
  - apply N.divide_factor_l.
  - apply N.divide_mul_r. auto.
Qed.
Lemma prod_bound l B : Forall (fun a => a <> 0 /\ a <= B) l -> prod l <> 0 /\ prod l <= B ^ N.of_nat (length l).
Proof.
  induction 1 as [|a l [A1 A2] F [I1 I2]]; cbn [prod fold_right length]; [split; [lia|cbn; lia]|].
  rewrite Nat2N.inj_succ, N.pow_succ_r'. split; [apply N.neq_mul_0; split; assumption|].
  apply N.mul_le_mono; assumption.
Qed.
Lemma prod_logs l : Forall (fun a => a <> 0) l -> 2 ^ fold_right N.add 0 (map N.log2 l) <= prod l.
Proof.
  induction 1 as [|a l A F IH]; cbn [prod fold_right map]; [reflexivity|].
  rewrite N.pow_add_r. apply N.mul_le_mono; [|exact IH]. apply N.log2_spec. lia.
Qed.
Lemma pairwise_nth l : (forall i j a b, nth_error l i = Some a -> nth_error l j = Some b -> (i < j)%nat -> N.gcd a b = 1) ->
  ForallOrdPairs (fun a b => N.gcd a b = 1) l.
Proof.
  induction l as [|x r IH]; intros F; constructor.
  - apply Forall_forall. intros y I. apply In_nth_error in I as [j J]. eapply (F 0%nat (S j)); [reflexivity|exact J|lia].
  - apply IH. intros i j a b A B L. eapply (F (S i) (S j)); [exact A|exact B|lia].
Qed.
Fixpoint coprime_all (l : list N) : bool :=
  match l with [] => true | x :: r => forallb (fun y => N.gcd x y =? 1) r && coprime_all r end.
Lemma coprime_all_ok l : coprime_all l = true -> ForallOrdPairs (fun a b => N.gcd a b = 1) l.
Proof.
  induction l as [|x r IH]; intros E; constructor; cbn in E; apply andb_prop in E as [E1 E2]; [|auto].
  rewrite forallb_forall in E1. apply Forall_forall. intros y I. apply N.eqb_eq, E1, I.
Qed.

(** ** Differences *)
Definition absdiff (a b : N) : N := N.max a b - N.min a b.
Fixpoint diffs (l : list N) : list N :=
  match l with [] => [] | x :: r => map (absdiff x) r ++ diffs r end.

Lemma absdiff_divide n a b : n <> 0 -> a mod n = b mod n -> N.divide n (absdiff a b).
Proof.
  intros Z E.
  assert (G : forall x y, x <= y -> x mod n = y mod n -> N.divide n (y - x)).
  { clear -Z. intros x y L E. exists (y / n - x / n).
    pose proof (N.div_mod y n Z) as Y. pose proof (N.div_mod x n Z) as X. rewrite E in X.
    rewrite N.mul_sub_distr_r, (N.mul_comm (y / n)), (N.mul_comm (x / n)). lia. }
  unfold absdiff. destruct (N.le_ge_cases a b) as [L|L].
  - rewrite N.max_r, N.min_l by exact L. apply G; assumption.
  - rewrite N.max_l, N.min_r by exact L. apply G; [exact L|symmetry; exact E].
Qed.
Lemma repeated_diff n l : n <> 0 -> ~ NoDup (map (fun x => x mod n) l) -> exists d, In d (diffs l) /\ N.divide n d.
Proof.
  intros Z. induction l as [|x r IH]; intros ND; [destruct ND; constructor|]. cbn [map diffs] in *.
  destruct (in_dec N.eq_dec (x mod n) (map (fun x => x mod n) r)) as [I|I].
  - apply in_map_iff in I as [y [E I]]. exists (absdiff x y). split; [apply in_or_app; left; apply in_map, I|].
    apply absdiff_divide; [exact Z|symmetry; exact E].
  - destruct IH as [d [I' Dv]]; [intros N; apply ND; constructor; assumption|].
    exists d. split; [apply in_or_app; right; exact I'|exact Dv].
Qed.
Lemma diffs_bound l B : NoDup l -> Forall (fun x => x <= B) l -> Forall (fun d => d <> 0 /\ d <= B) (diffs l).
Proof.
  induction l as [|x r IH]; intros ND F; cbn [diffs]; [constructor|].
  apply NoDup_cons_iff in ND as [NI ND]. apply Forall_cons_iff in F as [Fx F].
  apply Forall_app. split; [|apply IH; assumption]. apply Forall_map. rewrite Forall_forall in *. intros y I.
  specialize (F y I). unfold absdiff. assert (x <> y) by (intros ->; contradiction). lia.
Qed.
Lemma diffs_length l : (2 * length (diffs l) = length l * (length l - 1))%nat.
Proof.
  induction l as [|x r IH]; [reflexivity|]. cbn [diffs length]. rewrite app_length, map_length.
  destruct r as [|y r]; [reflexivity|]. cbn [length] in *. nia.
Qed.

(** ** The widths tried at depth 31 *)
(** lcm (1, ..., 500), and the prime powers of which it is the product *)
Definition small_lcm : N := 73239622318952846593863874519042298829761338251289259046349190034596307420803713394327759819891326985268312606648408875713314013313623337094312440663659803352061415560955398316253892220738945585450197206138869521568000.
Definition prime_powers : list N := [
    256; 243; 125; 343; 121; 169; 289; 361; 23; 29; 31; 37; 41; 43; 47; 53; 59; 61; 67; 71; 73;
    79; 83; 89; 97; 101; 103; 107; 109; 113; 127; 131; 137; 139; 149; 151; 157; 163; 167; 173;
    179; 181; 191; 193; 197; 199; 211; 223; 227; 229; 233; 239; 241; 251; 257; 263; 269; 271; 277;
    281; 283; 293; 307; 311; 313; 317; 331; 337; 347; 349; 353; 359; 367; 373; 379; 383; 389; 397;
    401; 409; 419; 421; 431; 433; 439; 443; 449; 457; 461; 463; 467; 479; 487; 491; 499
].
(** For c = 0, ..., 500: the largest divisor of 2^31 - c without prime factors up to 500. *)
Definition rough : list N := [
    1; 2147483647; 1; 22605091; 2304167; 715827881; 46684427; 2147483641; 1; 18046081; 1073741819;
    6118187; 536870909; 115861; 357913939; 2147483633; 262657; 19867; 214748363; 2147483629;
    59652323; 862097; 1527371; 4111; 1877171; 27183337; 45083; 2147483621; 107374181; 29389;
    417961; 2147483617; 22369621; 13854733; 10631107; 65075261; 1726273; 813749; 25411; 52377649;
    3780781; 37675151; 1073741803; 25264513; 18539; 2147483603; 97612891; 238609289; 31033;
    2147483599; 2521; 7134497; 23342213; 143165573; 5563429; 152293; 29826161; 195225781;
    30678337; 317159; 87481; 2147483587; 357913931; 184571; 1082401; 1262483; 381707; 24129029;
    647; 2147483579; 1073741789; 715827859; 38347921; 85899343; 2251031; 93368851; 41297761;
    2476913; 214748357; 1467863; 13147; 2147483567; 1073741783; 463319; 536870891; 2147483563;
    51130561; 12859183; 236507; 754297; 63841; 2147483557; 182423; 1252177; 1468867; 796249; 5197;
    2147483551; 1; 2147483549; 76695841; 21691753; 82595521; 429496709; 1132639; 2147483543;
    1073741771; 102261121; 107374177; 5250571; 119304641; 1779191; 12201611; 143165569; 2599859;
    15761; 564533; 4007; 214748353; 79536427; 4400581; 2879; 357913921; 7809031; 141319; 16111;
    34636831; 96703; 1; 8355967; 2445881; 3392549; 536870879; 11608019; 32537629; 23917; 14128181;
    5549053; 214748351; 14412641; 178956959; 12707003; 21913097; 143165567; 5835553; 11483869;
    13256071; 2147483501; 4294967; 102261119; 1073741749; 2147483497; 323027; 98081; 602887;
    12558383; 78341; 69273661; 947; 2147483489; 67108859; 715827829; 1; 7621; 59652319;
    2147483483; 1073741741; 217643; 53687087; 23087; 1381907; 2147483477; 536870869; 53923;
    56512723; 20069939; 44739239; 306783353; 19522577; 42107519; 18121; 35204647; 57943; 5436667;
    572357; 715827821; 10424677; 8555711; 1154561; 195225769; 46684423; 4869577; 70051; 1738853;
    357913909; 9377657; 31580639; 715827817; 6135667; 2147483449; 903823; 50647; 1073741723;
    3491843; 536870861; 306783349; 27531839; 58040093; 26843543; 5076793; 1073741719; 611993;
    1345541; 1; 1073741717; 715827811; 747731; 2147483431; 23860927; 761249; 536870857; 4137733;
    983; 1997659; 22369619; 2147483423; 153391673; 26512141; 349753; 15449521; 48623; 113025443;
    349981; 35081; 9502139; 29417581; 25679; 26561; 214748341; 715827803; 3257; 10900931; 32779;
    429496681; 32173; 761; 12936647; 93503; 3579139; 2147483399; 1822991; 10683997; 536870849;
    6049249; 34019; 1490273; 178481; 715827797; 16519103; 93368843; 1844917; 306783341; 107021;
    47721853; 15790319; 2147483383; 756689; 2147483381; 15339167; 1299143; 1073741689; 165191029;
    14913079; 17179867; 1073741687; 102261113; 536870843; 195225761; 71582779; 11864549; 1020667;
    4079; 1; 429496673; 13765919; 52377643; 20259277; 715827787; 1; 919; 119304631; 701;
    536870839; 143165557; 4492643; 2147483353; 12782639; 165191027; 87119; 21691751; 536870837;
    2147483347; 357913891; 21401; 2383; 31122947; 1073741671; 113025439; 6053; 49941473; 757;
    715827779; 8659207; 429496667; 357913889; 556487; 536870833; 34087037; 86627; 2147483329;
    11184809; 195225757; 1073741663; 2202547; 1080223; 2147483323; 153151; 74051149; 5821;
    8624431; 1073741659; 306783331; 719; 1297573; 12064513; 79536419; 10324439; 21262211; 6551;
    764501; 536870827; 9061111; 5088823; 1259521; 29826157; 16146491; 1073741651; 20369; 21474833;
    9717119; 1; 298303; 222953; 47721851; 97612877; 58040089; 6170929; 22139003; 214748329;
    102261109; 1405421; 2147483287; 3059093; 429496657; 463219; 65075251; 530767; 52377641; 64373;
    8910719; 1073741639; 238609253; 536870819; 12271333; 16193; 165191021; 149713; 715827757;
    214748327; 2147483269; 8521759; 29417579; 3041761; 443237; 16777213; 2251; 10631; 3984199;
    8259551; 1951; 1073741629; 2147483257; 1; 429496651; 886657; 234467; 536870813; 5413; 86767;
    2147483249; 7895159; 7866239; 56512717; 429496649; 178956937; 69273653; 1073741621; 238609249;
    661; 3308911; 357913873; 2147483237; 6468323; 143165549; 2848121; 306783319; 2485513;
    126322543; 214748323; 6567227; 26861; 1; 51130553; 965161; 1172207; 3911627; 1073741611;
    614093; 261251; 809; 1073741609; 65075249; 293693; 2939; 7017919; 2147483213; 7213; 4804213;
    1; 48677; 1877; 2147483207; 97612873; 3407; 11422783; 116099; 357913867; 2147483201; 1342177;
    17459213; 153391657; 126322541; 890333; 273043; 151637; 4740581; 268435399; 306783313;
    71582773; 113025431; 26249; 238609243; 1073741593; 429496637; 581029; 2147483183; 1367;
    23091217; 107053; 2147483179; 56893; 306783311; 9256393; 28633109; 1073741587; 195225743;
    178956931; 2147483171; 1614649; 1411889; 67108849; 49941469; 357913861; 429496633; 536870791;
    859337; 1600211; 2147483161; 5965231; 93368833; 26188819; 15230377; 5899679; 919693;
    357913859; 251197; 1254371; 380557; 26141; 3883333; 178956929
].

Definition rough_ok (c : nat) (m : N) : bool :=
  negb (m =? 0) && ((2 ^ 31 - N.of_nat c) mod m =? 0) && (N.gcd m (small_lcm mod m) =? 1).
Fixpoint rough_all (c : nat) (l : list N) : bool :=
  match l with [] => true | m :: r => rough_ok c m && rough_all (S c) r end.

Lemma rough_checked : rough_all 0 rough = true.
Proof. vm_compute. reflexivity. Qed.
Lemma small_lcm_checked : forallb (fun k => small_lcm mod N.of_nat k =? 0) (seq 1 500) = true.
Proof. vm_compute. reflexivity. Qed.
Lemma powers_checked :
  coprime_all prime_powers && (prod prime_powers =? small_lcm) && forallb (fun k => (1 <=? k) && (k <=? 500)) prime_powers = true.
Proof. vm_compute. reflexivity. Qed.
Lemma rough_weight : (256 * 45 <=? N.log2 small_lcm + fold_right N.add 0 (map N.log2 rough)) = true.
Proof. vm_compute. reflexivity. Qed.
Lemma rough_length : (length rough =? 501)%nat = true.
Proof. vm_compute. reflexivity. Qed.

Lemma rough_all_nth l : forall c i m, rough_all c l = true -> nth_error l i = Some m -> rough_ok (c + i) m = true.
Proof.
  induction l as [|x r IH]; intros c [|i] m A E; try discriminate; cbn in A; apply andb_prop in A as [A1 A2].
  - injection E as <-. rewrite Nat.add_0_r. exact A1.
  - rewrite <- Nat.add_succ_comm. eapply IH; eassumption.
Qed.
Lemma rough_facts i m : nth_error rough i = Some m ->
  m <> 0 /\ N.divide m (2 ^ 31 - N.of_nat i) /\ N.gcd m small_lcm = 1 /\ (i <= 500)%nat.
Proof.
  intros E. pose proof (rough_all_nth _ 0 i m rough_checked E) as K. cbn [Nat.add] in K.
  unfold rough_ok in K. apply andb_prop in K as [K G]. apply andb_prop in K as [Z Dv].
  apply N.eqb_eq in G. apply N.eqb_eq in Dv.
  assert (Zm : m <> 0) by (intros ->; discriminate).
  split; [exact Zm|]. split; [apply N.mod_divide; assumption|]. split.
  - rewrite <- N.gcd_mod by exact Zm. rewrite N.gcd_comm. exact G.
  - assert (i < length rough)%nat by (apply nth_error_Some; congruence).
    pose proof rough_length as Ln. apply Nat.eqb_eq in Ln. lia.
Qed.
Lemma small_divides k : 1 <= k <= 500 -> N.divide k small_lcm.
Proof.
  intros K. pose proof small_lcm_checked as C. rewrite forallb_forall in C.
  specialize (C (N.to_nat k)). rewrite N2Nat.id in C. apply N.mod_divide; [lia|]. apply N.eqb_eq, C, in_seq. lia.
Qed.
Lemma rough_pair i j a b : nth_error rough i = Some a -> nth_error rough j = Some b -> (i < j)%nat -> N.gcd a b = 1.
Proof.
  intros A B L. apply rough_facts in A as [Za [Da [Ga Ia]]]. apply rough_facts in B as [Zb [Db [_ Ib]]].
  set (g := N.gcd a b).
  assert (Ga' : N.divide g a) by apply N.gcd_divide_l. assert (Gb' : N.divide g b) by apply N.gcd_divide_r.
  assert (P31 : 2 ^ 31 = 2147483648) by reflexivity.
  assert (Dd : N.divide g (N.of_nat j - N.of_nat i)).
  { replace (N.of_nat j - N.of_nat i) with ((2 ^ 31 - N.of_nat i) - (2 ^ 31 - N.of_nat j)) by lia.
    apply N.divide_sub_r; [exact (N.divide_trans _ _ _ Ga' Da)|exact (N.divide_trans _ _ _ Gb' Db)]. }
  apply N.divide_1_r. rewrite <- Ga. apply N.gcd_greatest; [exact Ga'|].
  eapply N.divide_trans; [exact Dd|]. apply small_divides. lia.
Qed.
Lemma rough_nonzero : Forall (fun a => a <> 0) rough.
Proof. apply Forall_forall. intros a I. apply In_nth_error in I as [i I]. apply rough_facts in I. tauto. Qed.

(** Every number up to 500 divides one of the widths. *)
Lemma width_multiple k : 1 <= k <= 500 -> exists c, c <= 500 /\ N.divide k (2 ^ 31 - c).
Proof.
  intros K. exists (2 ^ 31 mod k). pose proof (N.mod_lt (2 ^ 31) k ltac:(lia)) as L. split; [lia|].
  exists (2 ^ 31 / k). pose proof (N.div_mod (2 ^ 31) k ltac:(lia)). lia.
Qed.

(** A number divisible by all the widths is large. *)
Lemma widths_divide q : q <> 0 -> (forall c, c <= 500 -> N.divide (2 ^ 31 - c) q) -> 2 ^ (256 * 45) <= q.
Proof.
  intros Z W.
  assert (DS : N.divide small_lcm q).
  { pose proof powers_checked as P. apply andb_prop in P as [P R]. apply andb_prop in P as [P E].
    apply N.eqb_eq in E. rewrite <- E. apply prod_divides; [apply coprime_all_ok, P|].
    rewrite forallb_forall in R. apply Forall_forall. intros k I. specialize (R k I).
    apply andb_prop in R as [R1 R2]. apply N.leb_le in R1. apply N.leb_le in R2.
    destruct (width_multiple k (conj R1 R2)) as [c [C1 C2]]. eapply N.divide_trans; [exact C2|]. apply W, C1. }
  assert (DR : N.divide (prod rough) q).
  { apply prod_divides; [apply pairwise_nth, rough_pair|]. apply Forall_forall. intros m I.
    apply In_nth_error in I as [i I]. apply rough_facts in I as [_ [Dv [_ L]]].
    eapply N.divide_trans; [exact Dv|]. apply W. lia. }
  assert (CP : N.gcd small_lcm (prod rough) = 1).
  { assert (G : forall l, (forall m, In m l -> N.gcd m small_lcm = 1) -> N.gcd (prod l) small_lcm = 1).
    { induction l as [|x r IH]; intros F; [apply N.gcd_1_l|]. cbn [prod fold_right].
      apply coprime_mul; [apply F; left; reflexivity|apply IH; intros m I; apply F; right; exact I]. }
    rewrite N.gcd_comm. apply G. intros m I. apply In_nth_error in I as [i I]. apply rough_facts in I. tauto. }
  pose proof (coprime_divides _ _ _ CP DS DR) as DD. apply N.divide_pos_le in DD; [|lia].
  etransitivity; [|exact DD].
  transitivity (2 ^ N.log2 small_lcm * 2 ^ fold_right N.add 0 (map N.log2 rough)).
  - rewrite <- N.pow_add_r. apply N.pow_le_mono_r; [discriminate|]. apply N.leb_le. exact rough_weight.
  - apply N.mul_le_mono; [apply N.log2_spec; reflexivity|apply prod_logs, rough_nonzero].
Qed.

Lemma le_val_inj32 (a b : bytes32) : le_val a = le_val b -> a = b.
Proof.
  intros E. apply b32_inj. rewrite <- (le_of_val (b32 a)), <- (le_of_val (b32 b)), !b32_length, E. reflexivity.
Qed.

Lemma id_bound (p : bytes32) : le_val p <= N.pred (2 ^ 256).
Proof.
  pose proof (le_val_bound (b32 p)) as B. rewrite b32_length in B.
  change (256 ^ N.of_nat 32) with (2 ^ 256) in B. apply N.lt_le_pred. exact B.
Qed.
Lemma pred_pow : N.pred (2 ^ 256) ^ 45 < 2 ^ (256 * 45).
Proof. rewrite N.pow_mul_r. apply N.pow_lt_mono_l; [discriminate|]. apply N.lt_pred_l. discriminate. Qed.
Lemma pairs_bound n k : (n <= 10 -> 2 * k = n * (n - 1) -> k <= 45)%nat.
Proof. intros L E. assert (n * (n - 1) <= 10 * 9)%nat by (apply Nat.mul_le_mono; lia). lia. Qed.

(** Ten numbers bounded by [B] cannot collide modulo every width. *)
Lemma few_residues xs B : (length xs <= 10)%nat -> NoDup xs -> Forall (fun x => x <= B) xs ->
  B <> 0 -> B ^ 45 < 2 ^ (256 * 45) ->
  ~ forall c, c <= 500 -> ~ NoDup (map (fun x => x mod (2 ^ 31 - c)) xs).
Proof.
  intros L ND F Z SM X. destruct (prod_bound (diffs xs) B (diffs_bound _ _ ND F)) as [ZQ BQ].
  apply (N.lt_irrefl (2 ^ (256 * 45))). eapply N.le_lt_trans; [|exact SM].
  etransitivity; [apply (widths_divide (prod (diffs xs)) ZQ)|].
  - intros c C. destruct (repeated_diff (2 ^ 31 - c) xs) as [d [I Dv]].
    + change (2 ^ 31) with 2147483648. clear -C. lia.
    + apply X, C.
    + eapply N.divide_trans; [exact Dv|]. apply prod_in, I.
  - etransitivity; [exact BQ|]. apply N.pow_le_mono_r; [exact Z|].
    pose proof (pairs_bound _ _ L (diffs_length xs)) as P. clear -P. lia.
Qed.

Lemma few_fit msgs : (length msgs <= 10)%nat -> NoDup (map fst msgs) -> exists c, c <= 500 /\ fits msgs 31 c.
Proof.
  intros L ND. set (xs := map (fun e : bytes32 * bytes32 => le_val (fst e)) msgs).
  assert (Lx : (length xs <= 10)%nat) by (unfold xs; rewrite map_length; exact L).
  assert (NDx : NoDup xs).
  { unfold xs. rewrite <- (map_map fst (fun p : bytes32 => le_val p)).
    apply FinFun.Injective_map_NoDup; [|exact ND]. intros a b E. apply le_val_inj32, E. }
  assert (Bx : Forall (fun x => x <= N.pred (2 ^ 256)) xs).
  { unfold xs. apply Forall_map, Forall_forall. intros e _. apply id_bound. }
  assert (E : forall c, c <= 500 -> map (fun e : bytes32 * bytes32 => s_pos (fst e) c 31) msgs = map (fun x => x mod (2 ^ 31 - c)) xs).
  { intros c C. unfold xs. rewrite map_map. apply map_ext. intros e. unfold s_pos.
    change (2 ^ N.of_nat 31) with 2147483648. change (2 ^ 31) with 2147483648.
    rewrite N.max_r; [reflexivity|]. clear -C. lia. }
  destruct (existsb (fun c => if ListDec.NoDup_dec N.eq_dec (map (fun x => x mod (2 ^ 31 - c)) xs) then true else false)
              (N_range 501)) eqn:X.
  - apply existsb_exists in X as [c [I Y]]. apply N_range_In in I. assert (C : c <= 500) by (clear -I; lia).
    exists c. split; [exact C|]. unfold fits. rewrite (E c C).
    destruct (ListDec.NoDup_dec _ _) as [D|D]; [exact D|discriminate].
  - exfalso. apply (few_residues xs (N.pred (2 ^ 256)) Lx NDx Bx); [discriminate|exact pred_pow|].
    intros c C D. assert (T : existsb (fun c => if ListDec.NoDup_dec N.eq_dec (map (fun x => x mod (2 ^ 31 - c)) xs) then true else false)
              (N_range 501) = true); [|congruence].
    apply existsb_exists. exists c. split; [apply N_range_In; clear -C; lia|].
    destruct (ListDec.NoDup_dec _ _) as [D'|D']; [reflexivity|contradiction].
Qed.
