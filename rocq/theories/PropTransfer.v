(** Histories sent over an untrusted channel: C109 *)
From Coq Require Import Permutation Sorting.Sorted.
From Verif Require Import Base BaseFacts OrdMap Strict Digest Merkle MpcAtoms MpcTree MpcBlock.
From Verif Require Import Engine EngineIo Schemes Seals Api Vesper Sha256 Ripemd Dumb Text Loops Orders Suites MpcTests Serde Steps Work Costs.
From Verif Require Import SpecHash SpecTree SpecMerkle SpecFull SpecValid SpecCommit SpecDerived SpecBlock.
From Verif Require Import SpecBuoy SpecStrings SpecCodec SpecLayout SpecEngine SpecMisc SpecSha SpecDerive SpecLocal SpecSession SpecRipemd SpecEnd Stl SpecStl SpecQuery SpecCount SpecText SpecOrders SpecFind SpecForm SpecGame SpecHideGame SpecViewGame SpecBlockGame SpecSuites SpecExtend SpecCompress SpecTests SpecSerde SpecTalk SpecMany SpecDepth SpecTarget SpecIdGame SpecLate SpecTransfer SpecNest SpecScript SpecSalt SpecOpen SpecChoice SpecPick SpecOffer SpecPlay SpecSeek SpecShare SpecSettled SpecResting SpecDraw SpecFuse SpecFeed.
From Verif Require Import TheoremsMpc TheoremsBlock TheoremsMerkle TheoremsMisc TheoremsMore TheoremsExt TheoremsAdv TheoremsLocal TheoremsSession TheoremsHash TheoremsHide TheoremsEnd TheoremsStl TheoremsQuery TheoremsCount TheoremsText TheoremsFrame TheoremsLoops TheoremsTight TheoremsOrders TheoremsFind TheoremsForm TheoremsGame TheoremsHideGame TheoremsViewGame TheoremsBlockGame TheoremsSuites TheoremsExtend TheoremsCompress TheoremsTests TheoremsSerde TheoremsTalk TheoremsMany TheoremsDepth TheoremsWork TheoremsTarget TheoremsAttack TheoremsIdGame TheoremsLate TheoremsTransfer TheoremsNest TheoremsCosts TheoremsScript TheoremsSalt TheoremsOpen TheoremsChoice TheoremsPick TheoremsOffer TheoremsPlay TheoremsSeek TheoremsShare TheoremsSettled TheoremsResting TheoremsDraw TheoremsFuse TheoremsFeed.
From Verif Require Import CasesMpc CasesMisc CasesMore CasesExt CasesAdv CasesLocal CasesSession CasesHash CasesHide CasesEnd CasesStl CasesQuery CasesCount CasesText CasesFrame CasesLoops CasesTight CasesOrders CasesFind CasesForm CasesGame CasesHideGame CasesViewGame CasesBlockGame CasesSuites CasesExtend CasesCompress CasesTests CasesSerde CasesTalk CasesMany CasesDepth CasesWork CasesTarget CasesAttack CasesIdGame CasesLate CasesTransfer CasesNest CasesCosts CasesScript CasesSalt CasesOpen CasesChoice CasesPick CasesOffer CasesPlay CasesSeek CasesShare CasesSettled CasesResting CasesDraw CasesFuse CasesFeed.
Local Open Scope nat_scope.

Theorem C109_delivered : forall (H : Hasher) Op Seal Pub PubId PubErr CliErr Issue Fail Warn Info Res
    (cs : codec Seal) (co : codec Op) (cp : codec Pub) vs vo vp
    (medium : Seal -> option Pub) (P : seal_protocol Seal bytes32 Pub merkle_proof bytes32 PubId PubErr CliErr)
    md pid (I : commit_encode Op) source D (resolve : Res -> claim Op Seal Pub -> result unit Issue * Res) r sent
  (seals : lawful cs vs) (ops : lawful co vo) (pubs : lawful cp vp)
  (client : forall w x c, convolve md w pid x = Ret (Ok c) -> sl_convolve P w x = Ok c)
  (capable : trusts_closed medium P md I resolve)
  (can_write : writable vs vo vp sent) (honest : forall x, In x sent -> transferred H medium P md I pid source D x),
  receive cs co cp Fail Warn Info resolve r (enc (c_consignment cs co cp) sent) = Some Valid.
Proof. exact c109_delivered. Qed.
Print Assumptions C109_delivered.
Example C109_delivered_case :
  lawful c_u5 (fun d => d <= 31) /\ lawful (c_le 1) op_ok /\ lawful c_pubs pubs_ok /\
  (forall w x c, @convolve toy Debug w p1 x = Ret (Ok c) -> sl_convolve mpc_protocol w x = Ok c) /\
  @trusts_closed toy N nat (list nat * bytes32) (list nat) unit unit medium0 mpc_protocol Debug opI nat nat resolve0 /\
  writable (fun d => d <= 31) op_ok pubs_ok sent0 /\
  (forall x, In x sent0 -> transferred toy medium0 mpc_protocol Debug opI p1 (fun _ => src_op) 2 x).
Proof. exact c109_delivered_case. Qed.

Theorem C109_exact : forall Op Seal Pub Issue Fail Warn Info Res (cs : codec Seal) (co : codec Op) (cp : codec Pub) vs vo vp
    (resolve : Res -> claim Op Seal Pub -> result unit Issue * Res) r bs v
  (seals : lawful cs vs) (ops : lawful co vo) (pubs : lawful cp vp)
  (read : receive cs co cp Fail Warn Info resolve r bs = Some v),
  (exists xs, bs = enc (c_consignment cs co cp) xs /\ writable vs vo vp xs) /\
  (forall more, more <> [] -> receive cs co cp Fail Warn Info resolve r (bs ++ more) = None) /\
  (forall part rest, bs = part ++ rest -> rest <> [] -> receive cs co cp Fail Warn Info resolve r part = None).
Proof. exact c109_exact. Qed.
Print Assumptions C109_exact.
Example C109_exact_case : lawful c_u5 (fun d => d <= 31) /\ lawful (c_le 1) op_ok /\ lawful c_pubs pubs_ok /\
  receive c_u5 (c_le 1) c_pubs nat nat nat resolve0 0 sent_bytes = Some Valid /\
  receive c_u5 (c_le 1) c_pubs nat nat nat resolve0 0 (sent_bytes ++ [x00]) = None /\
  receive c_u5 (c_le 1) c_pubs nat nat nat resolve0 0 (firstn 100 sent_bytes) = None /\
  receive c_u5 (c_le 1) c_pubs nat nat nat resolve0 0 (firstn 3 sent_bytes ++ [x06] ++ skipn 4 sent_bytes) = Some SealIssues.
Proof. exact c109_exact_case. Qed.

Theorem C109_same : forall (H : Hasher) Op Seal Pub PubId PubErr CliErr Issue Fail Warn Info Res Issue' Fail' Warn' Info' Res'
    (cs : codec Seal) (co : codec Op) (cp : codec Pub) vs vo vp
    (medium : Seal -> option Pub) (P : seal_protocol Seal bytes32 Pub merkle_proof bytes32 PubId PubErr CliErr)
    md md' pid (I : commit_encode Op) (fields : Op -> list field) (bytes hashed : Op -> list (list byte))
    (resolve : Res -> claim Op Seal Pub -> result unit Issue * Res) r (resolve' : Res' -> claim Op Seal Pub -> result unit Issue' * Res') r'
    bs bs' xs xs'
  (seals : lawful cs vs) (ops : lawful co vo) (pubs : lawful cp vp)
  (client : forall w x c, sl_convolve P w x = Ok c -> exists d, convolve d w pid x = Ret (Ok c))
  (one_commitment : forall pub p q v w, sl_verify_commitment P pub p = Ok v -> sl_verify_commitment P pub q = Ok w -> p = q)
  (encoder : forall d v, ce_encode I d v (engine_new (ce_tag I)) = run d (fields v) (engine_new (ce_tag I)))
  (regular : forall op op', vo op -> vo op' -> Forall2 same_kind (fields op) (fields op'))
  (faithful : forall op op', vo op -> vo op' -> fields op = fields op' -> op = op')
  (fed : forall op, vo op -> Forall2 feeds (fields op) (bytes op)) (inner : forall op, vo op -> fields_hashed (fields op) (hashed op))
  (careful : trusts_only_closed medium P md I resolve) (careful' : trusts_only_closed medium P md' I resolve')
  (accepted : receive cs co cp Fail Warn Info resolve r bs = Some Valid)
  (accepted' : receive cs co cp Fail' Warn' Info' resolve' r' bs' = Some Valid)
  (read : dec (c_consignment cs co cp) bs = Some (xs, [])) (read' : dec (c_consignment cs co cp) bs' = Some (xs', []))
  (same_seals : map (fun x => fst (fst x)) xs = map (fun x => fst (fst x)) xs'),
  let id op := HASH (s_pre (ce_tag I) (concat (bytes op))) in
  let strings x := let '(_, op, (_, pf)) := x in proof_pre pf pid (id op) ++ s_pre (ce_tag I) (concat (bytes op)) :: hashed op in
  bs = bs' \/ collision_in (flat_map strings xs ++ flat_map strings xs').
Proof. exact c109_same. Qed.
Print Assumptions C109_same.
Example C109_same_case : exists H : Hasher,
  (forall w x c, sl_convolve (plain_protocol H) w x = Ok c -> exists d, @convolve H d w p1 x = Ret (Ok c)) /\
  (forall pub p q v w, sl_verify_commitment (plain_protocol H) pub p = Ok v -> sl_verify_commitment (plain_protocol H) pub q = Ok w -> p = q) /\
  (forall d v, ce_encode opI d v (@engine_new H (ce_tag opI)) = @run H d (op_fields v) (@engine_new H (ce_tag opI))) /\
  (forall op op', op_ok op -> op_ok op' -> Forall2 same_kind (op_fields op) (op_fields op')) /\
  (forall op op', op_ok op -> op_ok op' -> op_fields op = op_fields op' -> op = op') /\
  (forall op, op_ok op -> Forall2 (@feeds H) (op_fields op) [enc (c_le 1) op]) /\ (forall op, op_ok op -> @fields_hashed H (op_fields op) []) /\
  @trusts_only_closed H N nat bytes32 nat unit unit plain_medium (plain_protocol H) Debug opI nat nat (knows 5%N) /\
  @trusts_only_closed H N nat bytes32 nat unit unit plain_medium (plain_protocol H) Debug opI nat nat (knows 6%N) /\
  receive c_u5 (c_le 1) c_b32 nat nat nat (knows 5%N) 0 (bytes_of 5) = Some Valid /\
  receive c_u5 (c_le 1) c_b32 nat nat nat (knows 6%N) 0 (bytes_of 6) = Some Valid /\
  dec (c_consignment c_u5 (c_le 1) c_b32) (bytes_of 5) = Some ([spends 5], []) /\
  dec (c_consignment c_u5 (c_le 1) c_b32) (bytes_of 6) = Some ([spends 6], []) /\
  map (fun x => fst (fst x)) [spends 5] = map (fun x => fst (fst x)) [spends 6].
Proof. exact c109_same_case. Qed.

Theorem C109_channel : forall n U q k D Op Seal Pub PubId PubErr CliErr Issue Fail Warn Info Res (cs : codec Seal) (co : codec Op) (cp : codec Pub) vs vo vp
  tag (I : Hasher -> commit_encode Op) (fields : Op -> list field) pid (source : Seal -> bytes32 -> multi_source * option N)
  (orders : list (Seal * Op)) (adversary : prog (list byte))
  (seals : lawful cs vs) (ops : lawful co vo) (pubs : lawful cp vp)
  (regular : forall op op', vo op -> vo op' -> Forall2 same_kind (fields op) (fields op'))
  (faithful : forall op op', vo op -> vo op' -> fields op = fields op' -> op = op')
  (sizes : forall H op, vo op -> small H n k tag (fields op)) (ordered : forall s op, In (s, op) orders -> vo op)
  (strings : universe n U) (short : 162 <= n) (short_tag : length tag <= n) (few : modest n q adversary)
  (encoder : forall H, feeds_fields H tag fields (I H)),
  let K := N.of_nat (length orders * (k + 2 + (2 * 2 ^ D + 2))) in
  rare U (fun H => tampered PubId PubErr CliErr Issue Fail Warn Info Res H cs co cp (I H) pid source D orders (exec H adversary))
       (K * (K - 1) + 2 * K * N.of_nat (q + length orders * (k + 37))) (2 ^ 257).
Proof. exact c109_channel. Qed.
Print Assumptions C109_channel.
Example C109_channel_case : exists U, universe 162 U /\ length (str "op") <= 162 /\ modest 162 1 forger /\
  lawful c_u5 (fun d => d <= 31) /\ lawful (c_le 1) op_ok /\ lawful c_b32 (fun _ => True) /\
  (forall op op', op_ok op -> op_ok op' -> Forall2 same_kind (op_fields op) (op_fields op')) /\
  (forall op op', op_ok op -> op_ok op' -> op_fields op = op_fields op' -> op = op') /\
  (forall H op, op_ok op -> small H 162 0 (str "op") (op_fields op)) /\ (forall s op, In (s, op) [(0, 5%N)] -> op_ok op) /\
  (forall H, feeds_fields H (str "op") op_fields opI) /\
  exists f, length f = length U /\ exec (table U f) forger = bytes_of 6 /\
    tampered nat unit unit nat nat nat nat nat (table U f) c_u5 (c_le 1) c_b32 opI p1 (fun _ => src_op) 2 [(0, 5%N)] (bytes_of 6).
Proof. exact c109_channel_case. Qed.

Theorem C109_numbers : forall n U q k D Op Seal Pub PubId PubErr CliErr Issue Fail Warn Info Res (cs : codec Seal) (co : codec Op) (cp : codec Pub) vs vo vp
  tag (I : Hasher -> commit_encode Op) (fields : Op -> list field) pid (source : Seal -> bytes32 -> multi_source * option N)
  (orders : list (Seal * Op)) (adversary : prog (list byte))
  (seals : lawful cs vs) (ops : lawful co vo) (pubs : lawful cp vp)
  (regular : forall op op', vo op -> vo op' -> Forall2 same_kind (fields op) (fields op'))
  (faithful : forall op op', vo op -> vo op' -> fields op = fields op' -> op = op')
  (sizes : forall H op, vo op -> small H n k tag (fields op)) (ordered : forall s op, In (s, op) orders -> vo op)
  (strings : universe n U) (short : 162 <= n) (short_tag : length tag <= n) (few : modest n q adversary)
  (encoder : forall H, feeds_fields H tag fields (I H))
  (work : (N.of_nat q <= 2 ^ 100)%N) (size : (N.of_nat k <= 2 ^ 16)%N) (depth : D <= 16) (number : (N.of_nat (length orders) <= 2 ^ 16)%N),
  rare U (fun H => tampered PubId PubErr CliErr Issue Fail Warn Info Res H cs co cp (I H) pid source D orders (exec H adversary)) 1 (2 ^ 121).
Proof. exact c109_numbers. Qed.
Print Assumptions C109_numbers.
Example C109_numbers_case : modest 162 1 forger /\ (N.of_nat 1 <= 2 ^ 100)%N /\ (N.of_nat 0 <= 2 ^ 16)%N /\ 2 <= 16 /\ (N.of_nat (length [(0, 5%N)]) <= 2 ^ 16)%N.
Proof. exact c109_numbers_case. Qed.
