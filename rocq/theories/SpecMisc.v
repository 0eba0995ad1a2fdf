(** Small specifications for length-prefixed hashing, commitment schemes, seals,
    validation statuses and layouts. *)
From Verif Require Import Base Strict Engine Schemes Seals Api Vesper SpecEngine.
Local Open Scope nat_scope.

(** ** Length-prefixed data: [k]-byte little-endian length, then the data. *)
Definition framed (k : nat) (datas : list (list byte)) : list byte :=
  concat (map (fun d => le k (N.of_nat (length d)) ++ d) datas).

(** ** Embed-commit: which verdict is due. *)
Section Embed.
Context {Msg Cont Proof E : Type} (I : embed_scheme Msg Cont Proof E).
Inductive em_verdict (self : Cont) (msg : Msg) (proof : Proof) : result unit (embed_verify_error E) -> Prop :=
| ev_restore e : em_restore I proof self = Err e -> em_verdict self msg proof (Err e)
| ev_message c e : em_restore I proof self = Ok c -> em_commit I c msg = Err e ->
    em_verdict self msg proof (Err (EvInvalidMessage e))
| ev_proof c c' p' : em_restore I proof self = Ok c -> em_commit I c msg = Ok (c', p') ->
    em_proof_eq I p' proof = false -> em_verdict self msg proof (Err EvInvalidProof)
| ev_container c c' p' : em_restore I proof self = Ok c -> em_commit I c msg = Ok (c', p') ->
    em_proof_eq I p' proof = true -> em_cont_eq I self c' = false ->
    em_verdict self msg proof (Err EvCommitmentMismatch)
| ev_ok c c' p' : em_restore I proof self = Ok c -> em_commit I c msg = Ok (c', p') ->
    em_proof_eq I p' proof = true -> em_cont_eq I self c' = true ->
    em_verdict self msg proof (Ok tt).
(** Restoring inverts embedding; equivalences are reflexive. *)
Record em_lawful : Prop := {
  eml_restore : forall c msg c' p, em_commit I c msg = Ok (c', p) -> em_restore I p c' = Ok c;
  eml_cont : forall c, em_cont_eq I c c = true;
  eml_proof : forall p, em_proof_eq I p p = true
}.
End Embed.

(** ** Convolve-commit *)
Section Convolve.
Context {Msg Src Suppl Cmt Proof E : Type} (I : convolve_scheme Msg Src Suppl Cmt Proof E).
Inductive cc_verdict (proof : Proof) (msg : Msg) (cmt : Cmt) : result unit convolve_verify_error -> Prop :=
| cv_message e : cc_commit I (cc_restore I proof cmt) (cc_suppl I proof) msg = Err e ->
    cc_verdict proof msg cmt (Err CvImpossibleMessage)
| cv_proof c' p' : cc_commit I (cc_restore I proof cmt) (cc_suppl I proof) msg = Ok (c', p') ->
    cc_proof_eq I proof p' = false -> cc_verdict proof msg cmt (Err CvInvalidProof)
| cv_cmt c' p' : cc_commit I (cc_restore I proof cmt) (cc_suppl I proof) msg = Ok (c', p') ->
    cc_proof_eq I proof p' = true -> cc_cmt_eq I cmt c' = false ->
    cc_verdict proof msg cmt (Err CvCommitmentMismatch)
| cv_ok c' p' : cc_commit I (cc_restore I proof cmt) (cc_suppl I proof) msg = Ok (c', p') ->
    cc_proof_eq I proof p' = true -> cc_cmt_eq I cmt c' = true ->
    cc_verdict proof msg cmt (Ok tt).
Record cc_lawful : Prop := {
  ccl_restore : forall src s msg c p, cc_commit I src s msg = Ok (c, p) ->
    exists c' p', cc_commit I (cc_restore I p c) (cc_suppl I p) msg = Ok (c', p') /\
      cc_proof_eq I p p' = true /\ cc_cmt_eq I c c' = true
}.
End Convolve.

(** ** Seals *)
Section Seal.
Context {Seal Msg Pub Cli Proof PubId PubErr CliErr : Type}.
Context (P : seal_protocol Seal Msg Pub Cli Proof PubId PubErr CliErr).
Inductive closing_verdict (pub : Pub) (cli : Cli) (seals : list Seal) (msg : Msg)
  : result unit (seal_error Seal PubId PubErr CliErr) -> Prop :=
| sv_not_included before s after : seals = before ++ s :: after ->
    (forall x, In x before -> sl_is_included P x msg (pub, cli) = true) ->
    sl_is_included P s msg (pub, cli) = false ->
    closing_verdict pub cli seals msg (Err (SeNotIncluded s (sl_pub_id P pub)))
| sv_client e : (forall x, In x seals -> sl_is_included P x msg (pub, cli) = true) ->
    sl_convolve P cli msg = Err e -> closing_verdict pub cli seals msg (Err (SeClient e))
| sv_published proof e : (forall x, In x seals -> sl_is_included P x msg (pub, cli) = true) ->
    sl_convolve P cli msg = Ok proof -> sl_verify_commitment P pub proof = Err e ->
    closing_verdict pub cli seals msg (Err (SePublished e))
| sv_ok proof u : (forall x, In x seals -> sl_is_included P x msg (pub, cli) = true) ->
    sl_convolve P cli msg = Ok proof -> sl_verify_commitment P pub proof = Ok u ->
    closing_verdict pub cli seals msg (Ok u).
End Seal.

(** ** Statuses *)

(** How bad a verdict is. *)
Definition severity (v : validity) : nat := match v with Valid => 0 | SealIssues => 1 | Invalid => 2 end.
Definition worse (a b : validity) : validity := if severity a <=? severity b then b else a.

Section StatusSpec.
Context {Issue Fail Warn Info : Type}.
Notation status := (status Issue Fail Warn Info).

(** Everything that can happen to a status. *)
Inductive event : Type :=
| EvIssue (x : Issue) | EvFail (x : Fail) | EvWarn (x : Warn) | EvInfo (x : Info) | EvMerge (s : status).
Definition apply_event (s : status) (e : event) : status :=
  match e with
  | EvIssue x => add_seal_issue s x
  | EvFail x => add_failure s x
  | EvWarn x => add_warning s x
  | EvInfo x => add_info s x
  | EvMerge r => add_assign s r
  end.
Definition issues_of (e : event) : list Issue :=
  match e with EvIssue x => [x] | EvMerge s => seal_issues s | _ => [] end.
Definition fails_of (e : event) : list Fail :=
  match e with EvFail x => [x] | EvMerge s => failures s | _ => [] end.
Definition warns_of (e : event) : list Warn :=
  match e with EvWarn x => [x] | EvMerge s => warnings s | _ => [] end.
Definition infos_of (e : event) : list Info :=
  match e with EvInfo x => [x] | EvMerge s => info s | _ => [] end.

(** A resolver called for each seal of a list in turn: the results and the final state. *)
Inductive resolves {Seal Res : Type} (resolve : Res -> Seal -> result unit Issue * Res)
  : Res -> list Seal -> list (result unit Issue) -> Res -> Prop :=
| rs_nil r : resolves resolve r [] [] r
| rs_cons r s seals x r1 xs r2 : resolve r s = (x, r1) -> resolves resolve r1 seals xs r2 ->
    resolves resolve r (s :: seals) (x :: xs) r2.
Definition problems (xs : list (result unit Issue)) : list Issue :=
  concat (map (fun x => match x with Ok _ => [] | Err i => [i] end) xs).

(** The entries of one status followed by those of another. *)
Definition joined (a b : status) : status :=
  Status (seal_issues a ++ seal_issues b) (failures a ++ failures b)
         (warnings a ++ warnings b) (info a ++ info b).
(** Everything reported for the items: for each the problems of its seals, then its own entries. *)
Fixpoint reports {Seal : Type} (items : list (client_data Issue Fail Warn Info Seal)) (xss : list (list (result unit Issue))) : status :=
  match items, xss with
  | it :: items', xs :: xss' =>
      joined (Status (problems xs) [] [] []) (joined (cd_consistency it) (reports items' xss'))
  | _, _ => Status [] [] [] []
  end.
End StatusSpec.

(** ** Layouts: what is left without library names. *)
Definition anonymous (f : type_fqn) : type_fqn := Fqn "" (fq_name f).
Definition forget_step (s : commit_step) : commit_step :=
  match s with
  | StSerialized f => StSerialized (anonymous f)
  | StCollection ColList z f => StCollection ColList z (anonymous f)
  | StCollection ColSet z f => StCollection ColSet z (anonymous f)
  | StCollection (ColMap k) z f => StCollection (ColMap (anonymous k)) z (anonymous f)
  | StHashed f => StHashed (anonymous f)
  | StMerklized f => StMerklized (anonymous f)
  | StConcealed f => StConcealed (anonymous f)
  end.
Definition forget_libs (l : commit_layout) : commit_layout :=
  CommitLayout (anonymous (cl_idty l)) (cl_tag l) (map forget_step (cl_fields l)).

(** ** Layouts: the text for a step *)
Definition step_text (s : commit_step) : vtext :=
  match s with
  | StSerialized f => VText (fq_name f) PSerialized [] []
  | StHashed f => VText (fq_name f) PHashed [] []
  | StMerklized f => VText (fq_name f) PMerklized [] []
  | StConcealed f => VText (fq_name f) PConcealed [("concealed"%string, AvIdent (fq_name f))] []
  | StCollection ColList z f =>
      VText (fq_name f) PList [("len"%string, AvLen z)] [VText (fq_name f) PElement [] []]
  | StCollection ColSet z f =>
      VText (fq_name f) PSet [("len"%string, AvLen z)] [VText (fq_name f) PElement [] []]
  | StCollection (ColMap k) z f =>
      VText (fq_name f) PMap [("len"%string, AvLen z)]
        [VText (fq_name k) PMapKey [] []; VText (fq_name f) PMapValue [] []]
  end.
Definition layout_text (l : commit_layout) : vtext :=
  VText (fq_name (cl_idty l)) PCommitment
    [("hasher"%string, AvIdent "SHA256"); ("tagged"%string, AvTag (cl_tag l))] (map step_text (cl_fields l)).
