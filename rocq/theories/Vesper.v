(** commit_verify/src/vesper.rs *)
From Verif Require Import Base Engine.

(** vesper.rs:33-49 *)
Inductive pred : Set :=
| PCommitment | PSerialized | PHashed | PMerklized | PConcealed
| PList | PSet | PElement | PMap | PMapKey | PMapValue.

(** vesper.rs:55-61; LenRange is made from a Sizing without loss (crate outside /repo). *)
Inductive attr : Set :=
| ATagged (tag : list byte)
| AConcealed (f : type_fqn)
| ALenRange (s : sizing)
| AHasher.

(** vesper::TExpr (crate outside /repo); [comment] is always None and left out. *)
Inductive vexpr : Set := VExpr (subject : string) (p : pred) (attrs : list attr) (content : list vexpr).

(** vesper.rs:73-80, 82-89: the printed name and value of an attribute. *)
Inductive attr_val : Set := AvTag (tag : list byte) | AvLen (s : sizing) | AvIdent (i : string).
Definition attr_name (a : attr) : string :=
  match a with
  | ATagged _ => "tagged" | AConcealed _ => "concealed" | ALenRange _ => "len" | AHasher => "hasher"
  end.
Definition attr_value (a : attr) : attr_val :=
  match a with
  | ATagged t => AvTag t
  | AConcealed f => AvIdent (fq_name f)
  | ALenRange s => AvLen s
  | AHasher => AvIdent "SHA256"
  end.

(** vesper.rs:93-103 *)
Definition step_subject (s : commit_step) : string :=
  fq_name (match s with
           | StSerialized f => f
           | StCollection _ _ f => f
           | StHashed f => f
           | StMerklized f => f
           | StConcealed f => f
           end).

(** vesper.rs:105-115 *)
Definition step_predicate (s : commit_step) : pred :=
  match s with
  | StSerialized _ => PSerialized
  | StCollection ColList _ _ => PList
  | StCollection ColSet _ _ => PSet
  | StCollection (ColMap _) _ _ => PMap
  | StHashed _ => PHashed
  | StMerklized _ => PMerklized
  | StConcealed _ => PConcealed
  end.

(** vesper.rs:117-123 *)
Definition step_attributes (s : commit_step) : list attr :=
  match s with
  | StCollection _ sz _ => [ALenRange sz]
  | StConcealed f => [AConcealed f]
  | StSerialized _ | StHashed _ | StMerklized _ => []
  end.

(** vesper.rs:125-160 *)
Definition step_content (s : commit_step) : list vexpr :=
  match s with
  | StCollection ColList _ v | StCollection ColSet _ v => [VExpr (fq_name v) PElement [] []]
  | StCollection (ColMap k) _ v => [VExpr (fq_name k) PMapKey [] []; VExpr (fq_name v) PMapValue [] []]
  | StSerialized _ | StHashed _ | StMerklized _ | StConcealed _ => []
  end.

(** vesper.rs:164-187 [CommitLayout::to_vesper]; [from_iter_checked] would panic above 255
    children, but a layout has at most 255 steps (TinyVec). *)
Definition to_vesper (l : commit_layout) : outcome vexpr :=
  let content := map (fun f => VExpr (step_subject f) (step_predicate f) (step_attributes f) (step_content f))
                     (cl_fields l) in
  if Nat.leb (length content) 255 then
    Ret (VExpr (fq_name (cl_idty l)) PCommitment [AHasher; ATagged (cl_tag l)] content)
  else Panic PExpect.

(** What the Vesper syntax prints of an expression: attributes by name and value. *)
Inductive vtext : Set := VText (subject : string) (p : pred) (attrs : list (string * attr_val)) (content : list vtext).
Fixpoint vprint (e : vexpr) : vtext :=
  match e with
  | VExpr s p a c => VText s p (map (fun x => (attr_name x, attr_value x)) a) (map vprint c)
  end.
