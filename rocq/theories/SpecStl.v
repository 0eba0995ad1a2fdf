(** Specification: what a published type expression says about bytes (the strict encoding
    rules), the reading of the crate's values as data of those types, and the Vesper
    notation of commitment layouts. *)
From Verif Require Import Base Merkle MpcAtoms MpcTree MpcBlock Engine Vesper Stl.
Local Open Scope N_scope.

(** Data described by a type. *)
Inductive sval : Set :=
| DInt (n : N)
| DBytes (l : list byte)
| DEnum (variant : string)
| DStruct (fields : list (string * sval))
| DTuple (fields : list sval)
| DUnion (alt : string) (v : sval)
| DNone
| DSome (v : sval)
| DList (items : list sval)
| DMap (entries : list (sval * sval)).

(** Little-endian reading *)
Fixpoint little (l : list byte) : N :=
  match l with [] => 0 | b :: r => Byte.to_N b + 256 * little r end.

(** Lexicographic order *)
Inductive lex : list byte -> list byte -> Prop :=
| LexEnd p y b : lex p (p ++ y :: b)
| LexDiff p x y a b : Byte.to_N x < Byte.to_N y -> lex (p ++ x :: a) (p ++ y :: b).

(** Order of map keys *)
Inductive key_lt : sval -> sval -> Prop :=
| KInt n m : n < m -> key_lt (DInt n) (DInt m)
| KBytes a b : lex a b -> key_lt (DBytes a) (DBytes b).

Inductive increasing : list sval -> Prop :=
| IncNil : increasing []
| IncOne k : increasing [k]
| IncCons k k' r : key_lt k k' -> increasing (k' :: r) -> increasing (k :: k' :: r).

(** Bytes of the length prefix of a collection of at most [max] items *)
Definition prefix_bytes (max : N) : nat :=
  if max <? 2 ^ 8 then 1 else if max <? 2 ^ 16 then 2 else if max <? 2 ^ 24 then 3 else if max <? 2 ^ 32 then 4 else 8.

Fixpoint find_type (n : string) (lib : list (string * sty)) : option sty :=
  match lib with
  | [] => None
  | (m, t) :: r => if String.eqb n m then Some t else find_type n r
  end.

(** [sencodes lib t v bs]: the bytes [bs] are the value [v] of type [t]. *)
Inductive sencodes (lib : list (string * sty)) : sty -> sval -> list byte -> Prop :=
| EncUInt k bs : length bs = k -> sencodes lib (TUInt k) (DInt (little bs)) bs
| EncBytes n bs : length bs = n -> sencodes lib (TBytes n) (DBytes bs) bs
| EncEnum vs name b : In (name, Byte.to_N b) vs -> sencodes lib (TEnum vs) (DEnum name) [b]
| EncStruct fs vs bs : sfields lib fs vs bs -> sencodes lib (TStruct fs) (DStruct vs) bs
| EncTuple ts vs bs : stuple lib ts vs bs -> sencodes lib (TTuple ts) (DTuple vs) bs
| EncUnion alts name b t v bs :
    In (name, Byte.to_N b, t) alts -> sencodes lib t v bs ->
    sencodes lib (TUnion alts) (DUnion name v) (b :: bs)
| EncNone t : sencodes lib (TOption t) DNone [x00]
| EncSome t v bs : sencodes lib t v bs -> sencodes lib (TOption t) (DSome v) (x01 :: bs)
| EncList t min max vs p bs :
    length p = prefix_bytes max -> little p = N.of_nat (length vs) -> min <= little p <= max ->
    sitems lib t vs bs -> sencodes lib (TList t min max) (DList vs) (p ++ bs)
| EncMap k t min max es p bs :
    length p = prefix_bytes max -> little p = N.of_nat (length es) -> min <= little p <= max ->
    sentries lib k t es bs -> increasing (map fst es) ->
    sencodes lib (TMap k t min max) (DMap es) (p ++ bs)
| EncName n t v bs : find_type n lib = Some t -> sencodes lib t v bs -> sencodes lib (TName n) v bs
with sfields (lib : list (string * sty)) : list (string * sty) -> list (string * sval) -> list byte -> Prop :=
| FldNil : sfields lib [] [] []
| FldCons n t fs v vs bs bs' : sencodes lib t v bs -> sfields lib fs vs bs' ->
    sfields lib ((n, t) :: fs) ((n, v) :: vs) (bs ++ bs')
with stuple (lib : list (string * sty)) : list sty -> list sval -> list byte -> Prop :=
| TupNil : stuple lib [] [] []
| TupCons t ts v vs bs bs' : sencodes lib t v bs -> stuple lib ts vs bs' ->
    stuple lib (t :: ts) (v :: vs) (bs ++ bs')
with sitems (lib : list (string * sty)) : sty -> list sval -> list byte -> Prop :=
| ItmNil t : sitems lib t [] []
| ItmCons t v vs bs bs' : sencodes lib t v bs -> sitems lib t vs bs' -> sitems lib t (v :: vs) (bs ++ bs')
with sentries (lib : list (string * sty)) : sty -> sty -> list (sval * sval) -> list byte -> Prop :=
| EntNil k t : sentries lib k t [] []
| EntCons k t a v es ba bv bs : sencodes lib k a ba -> sencodes lib t v bv -> sentries lib k t es bs ->
    sentries lib k t ((a, v) :: es) (ba ++ bv ++ bs).

(** The published library *)
Definition described (name : string) (v : sval) (bs : list byte) : Prop :=
  sencodes commit_verify_sty (TName name) v bs.

(** ** The crate's values as data of the published types *)

Definition d_b32 (b : bytes32) : sval := DBytes b.
Definition d_u5 (d : nat) : sval :=
  DEnum (nth d ["_0"; "_1"; "_2"; "_3"; "_4"; "_5"; "_6"; "_7"; "_8"; "_9"; "_10"; "_11"; "_12"; "_13"; "_14"; "_15";
                "_16"; "_17"; "_18"; "_19"; "_20"; "_21"; "_22"; "_23"; "_24"; "_25"; "_26"; "_27"; "_28"; "_29";
                "_30"; "_31"]%string ""%string).
Definition d_method (m : method) : sval := match m with Sha256t => DEnum "sha256t" end.
Definition d_branching (b : branching) : sval :=
  DEnum (match b with Void => "void" | Single => "single" | Branch => "branch" end).
Definition d_leaf (l : leaf) : sval :=
  match l with
  | Inhabited p m => DUnion "inhabited" (DStruct [("protocol"%string, d_b32 p); ("message"%string, d_b32 m)])
  | Entropy e i => DUnion "entropy" (DStruct [("entropy"%string, DInt e); ("pos"%string, DInt i)])
  end.
Definition d_tree_node (n : tree_node) : sval :=
  match n with
  | ConcealedNode d h => DUnion "concealedNode" (DStruct [("depth"%string, d_u5 d); ("hash"%string, d_b32 h)])
  | CommitmentLeaf p m => DUnion "commitmentLeaf" (DStruct [("protocolId"%string, d_b32 p); ("message"%string, d_b32 m)])
  end.
Definition d_node (n : merkle_node) : sval :=
  DStruct [("branching"%string, d_branching (mn_branching n)); ("depth"%string, DInt (mn_depth n));
           ("width"%string, DInt (mn_width n)); ("node1"%string, d_b32 (mn_node1 n)); ("node2"%string, d_b32 (mn_node2 n))].
Definition d_concealed (c : merkle_concealed) : sval :=
  DStruct [("depth"%string, d_u5 (mc_depth c)); ("cofactor"%string, DInt (mc_cofactor c));
           ("merkleRoot"%string, d_b32 (mc_merkle_root c))].
Definition d_proof (p : merkle_proof) : sval :=
  DStruct [("method"%string, d_method (mp_method p)); ("pos"%string, DInt (mp_pos p));
           ("cofactor"%string, DInt (mp_cofactor p)); ("path"%string, DList (map d_b32 (mp_path p)))].
Definition d_block (b : merkle_block) : sval :=
  DStruct [("method"%string, d_method (mb_method b)); ("depth"%string, d_u5 (mb_depth b));
           ("cofactor"%string, DInt (mb_cofactor b));
           ("crossSection"%string, DList (map d_tree_node (mb_cross_section b)));
           ("entropy"%string, match mb_entropy b with None => DNone | Some e => DSome (DInt e) end)].
Definition d_tree (t : merkle_tree) : sval :=
  DStruct [("method"%string, d_method (mt_method t)); ("depth"%string, d_u5 (mt_depth t));
           ("entropy"%string, DInt (mt_entropy t)); ("cofactor"%string, DInt (mt_cofactor t));
           ("messages"%string, DMap (map (fun e => (d_b32 (fst e), d_b32 (snd e))) (mt_messages t)));
           ("map"%string, DMap (map (fun e => (DInt (fst e), DTuple [d_b32 (fst (snd e)); d_b32 (snd (snd e))])) (mt_map t)))].

(** ** Vesper notation *)

Definition pred_text (p : pred) : string :=
  match p with
  | PCommitment => "commitment" | PSerialized => "serialized" | PHashed => "hashed" | PMerklized => "merklized"
  | PConcealed => "concealed" | PList => "list" | PSet => "set" | PElement => "element" | PMap => "map"
  | PMapKey => "mapKey" | PMapValue => "mapValue"
  end.

(** [AvLen] is printed by another crate and is not used by the crate's own layouts. *)
Definition attr_text (a : string * attr_val) : option string :=
  match snd a with
  | AvTag t => Some (fst a ++ " " ++ string_of_list_byte t)%string
  | AvIdent i => Some (fst a ++ " " ++ i)%string
  | AvLen _ => None
  end.

Fixpoint attrs_text (l : list (string * attr_val)) : option string :=
  match l with
  | [] => Some ""%string
  | a :: r => match attr_text a, attrs_text r with
              | Some x, Some y => Some (", " ++ x ++ y)%string
              | _, _ => None
              end
  end.

(** Predicate, subject, attributes; the content below, indented by two spaces *)
Fixpoint vlines (indent : string) (x : vtext) : option (list string) :=
  match x with
  | VText s p attrs content =>
      match attrs_text attrs with
      | None => None
      | Some a =>
          match (fix go (l : list vtext) : option (list string) :=
                   match l with
                   | [] => Some []
                   | y :: r => match vlines ("  " ++ indent) y, go r with
                               | Some u, Some w => Some (u ++ w)
                               | _, _ => None
                               end
                   end) content with
          | None => None
          | Some body => Some ((indent ++ pred_text p ++ " " ++ s ++ a)%string :: body)
          end
      end
  end.

(** The text of the layout that the code computes *)
Definition layout_lines (l : outcome commit_layout) : option (list string) :=
  match l with
  | Ret l => match to_vesper l with Ret e => vlines "" (vprint e) | Panic _ => None end
  | Panic _ => None
  end.

Definition published_layout (name : string) : option (list string) :=
  option_map snd (find (fun e => String.eqb name (fst e)) published_layouts).
