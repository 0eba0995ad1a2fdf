(** Concrete cases meeting the hypotheses of the theorems of TheoremsHide.v. *)
From Verif Require Import Base BaseFacts MpcAtoms MpcTree MpcBlock SpecHash SpecFull SpecValid Sha256.
From Verif Require Import TheoremsMpc TheoremsHide CasesMpc.
Local Open Scope nat_scope.

Fixpoint distinct_hashes {H : Hasher} (L : list (list byte)) : bool :=
  match L with
  | [] => true
  | x :: L' => forallb (fun y => bytes_eqb x y || negb (b32_eqb (HASH x) (HASH y))) L' && distinct_hashes L'
  end.
Lemma distinct_hashes_ok {H : Hasher} L : distinct_hashes L = true -> ~ collision_in L.
Proof.
  induction L as [|z L IH]; intros E [x [y [X [Y [N Q]]]]]; [destruct X|]. cbn [distinct_hashes] in E. apply andb_prop in E as [A B].
  rewrite forallb_forall in A.
  assert (Z : forall w, In w L -> z <> w -> HASH z <> HASH w).
  { intros w W NW EW. specialize (A w W). apply orb_prop in A as [A|A]; [apply bytes_eqb_eq in A; contradiction|].
    apply (proj2 (b32_eqb_eq _ _)) in EW. rewrite EW in A. discriminate. }
  destruct X as [<-|X], Y as [<-|Y].
  - contradiction.
  - exact (Z y Y N Q).
  - exact (Z x X (fun e => N (eq_sym e)) (eq_sym Q)).
  - apply (IH B). exists x, y. auto.
Qed.

(** One message instead of three, another entropy *)
Definition srch : multi_source := MultiSource Sha256t 2 [(p1, m1)] (Some 9%N).
Definition th : merkle_tree := Eval vm_compute in match try_commit srch None with Ret (Ok t) => t | _ => t0 end.
Lemma srch_valid : valid_source srch. Proof. vsrc. Qed.

Lemma c81_hidden_case : valid_source src0 /\ valid_source srch /\
  try_commit src0 None = Ret (Ok t0) /\ try_commit srch None = Ret (Ok th) /\ ms_method src0 = ms_method srch /\
  mt_depth t0 = mt_depth th /\ mt_cofactor t0 = mt_cofactor th /\
  In (p1, m1) (ms_messages src0) /\ In (p1, m1) (ms_messages srch) /\
  (exists b n, @conceal_except sha256 Debug (@block_of_tree sha256 t0) [p1] = Ret (b, Ok n)) /\
  length (ms_messages src0) = 3 /\ length (ms_messages srch) = 1 /\
  @tree_commit_id sha256 Debug t0 <> @tree_commit_id sha256 Debug th /\
  ~ @collision_in sha256 (@tree_pre sha256 t0 ++ @tree_pre sha256 th).
Proof.
  split; [exact src0_valid|split; [exact srch_valid|]]. split; [comp|split; [comp|]]. split; [comp|split; [comp|split; [comp|]]].
  split; [left; reflexivity|split; [left; reflexivity|]].
  split; [eexists; eexists; comp|]. split; [comp|split; [comp|]]. split; [vm_compute; discriminate|].
  apply distinct_hashes_ok. comp.
Qed.
