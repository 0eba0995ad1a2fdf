(** Published artefacts: stl/CommitVerify@0.1.0.sty (type library compiled by
    commit_verify/src/stl.rs:29-76, written by bin/commit-stl.rs:47-61) and
    stl/Merkle.vesper (bin/commit-stl.rs:78-118).  The files are transcribed here;
    mnemonics, ids and comments are left out, and [Std.U5], imported from another
    library, is taken from its expansion at Merkle.vesper:41-47. *)
From Verif Require Import Base.
Local Open Scope N_scope.

(** Type expressions of the .sty language, as far as the two files use them. *)
Inductive sty : Set :=
| TUInt (bytes : nat)                              (* U8, U16, U32, U64, U256 *)
| TBytes (len : nat)                               (* [Byte ^ len] *)
| TEnum (variants : list (string * N))             (* a | b | c *)
| TStruct (fields : list (string * sty))           (* name Type, name Type *)
| TTuple (fields : list sty)                       (* Type, Type *)
| TUnion (alts : list (string * N * sty))          (* name#tag (…) | name (…) *)
| TOption (t : sty)                                (* Type? *)
| TList (t : sty) (min max : N)                    (* [Type ^ min..max] *)
| TMap (k v : sty) (min max : N)                   (* {Key -> ^ min..max Value} *)
| TName (n : string).                              (* reference to another definition *)

(** Merkle.vesper:42-45 *)
Definition std_u5 : sty := TEnum
  [("_0"%string, 0); ("_1"%string, 1); ("_2"%string, 2); ("_3"%string, 3); ("_4"%string, 4); ("_5"%string, 5); ("_6"%string, 6); ("_7"%string, 7);
   ("_8"%string, 8); ("_9"%string, 9); ("_10"%string, 10); ("_11"%string, 11); ("_12"%string, 12); ("_13"%string, 13); ("_14"%string, 14); ("_15"%string, 15);
   ("_16"%string, 16); ("_17"%string, 17); ("_18"%string, 18); ("_19"%string, 19); ("_20"%string, 20); ("_21"%string, 21); ("_22"%string, 22); ("_23"%string, 23);
   ("_24"%string, 24); ("_25"%string, 25); ("_26"%string, 26); ("_27"%string, 27); ("_28"%string, 28); ("_29"%string, 29); ("_30"%string, 30); ("_31"%string, 31)].

(** CommitVerify@0.1.0.sty:75-169 *)
Definition reserved_types : list (nat * string) :=
  [(1%nat, "ReservedBytes1"%string) (* 76 *);
   (10%nat, "ReservedBytes10"%string) (* 79 *);
   (11%nat, "ReservedBytes11"%string) (* 82 *);
   (12%nat, "ReservedBytes12"%string) (* 85 *);
   (13%nat, "ReservedBytes13"%string) (* 88 *);
   (14%nat, "ReservedBytes14"%string) (* 91 *);
   (15%nat, "ReservedBytes15"%string) (* 94 *);
   (16%nat, "ReservedBytes16"%string) (* 97 *);
   (17%nat, "ReservedBytes17"%string) (* 100 *);
   (18%nat, "ReservedBytes18"%string) (* 103 *);
   (19%nat, "ReservedBytes19"%string) (* 106 *);
   (2%nat, "ReservedBytes2"%string) (* 109 *);
   (20%nat, "ReservedBytes20"%string) (* 112 *);
   (21%nat, "ReservedBytes21"%string) (* 115 *);
   (22%nat, "ReservedBytes22"%string) (* 118 *);
   (23%nat, "ReservedBytes23"%string) (* 121 *);
   (24%nat, "ReservedBytes24"%string) (* 124 *);
   (25%nat, "ReservedBytes25"%string) (* 127 *);
   (26%nat, "ReservedBytes26"%string) (* 130 *);
   (27%nat, "ReservedBytes27"%string) (* 133 *);
   (28%nat, "ReservedBytes28"%string) (* 136 *);
   (29%nat, "ReservedBytes29"%string) (* 139 *);
   (3%nat, "ReservedBytes3"%string) (* 142 *);
   (30%nat, "ReservedBytes30"%string) (* 145 *);
   (31%nat, "ReservedBytes31"%string) (* 148 *);
   (32%nat, "ReservedBytes32"%string) (* 151 *);
   (4%nat, "ReservedBytes4"%string) (* 154 *);
   (5%nat, "ReservedBytes5"%string) (* 157 *);
   (6%nat, "ReservedBytes6"%string) (* 160 *);
   (7%nat, "ReservedBytes7"%string) (* 163 *);
   (8%nat, "ReservedBytes8"%string) (* 166 *);
   (9%nat, "ReservedBytes9"%string) (* 169 *)].

(** CommitVerify@0.1.0.sty:18-176; the numbers are lines of that file. *)
Definition commit_verify_sty : list (string * sty) :=
  [("Std.U5"%string, std_u5);                                                       (* 15 *)
   ("Commitment"%string, TBytes 32);                                                (* 19 *)
   ("Leaf"%string, TUnion                                                           (* 22-23 *)
      [("inhabited"%string, 16, TStruct [("protocol"%string, TName "ProtocolId"); ("message"%string, TName "Message")]);
       ("entropy"%string, 17, TStruct [("entropy"%string, TUInt 8); ("pos"%string, TUInt 4)])]);
   ("MerkleBlock"%string, TStruct                                                   (* 26-30 *)
      [("method"%string, TName "Method"); ("depth"%string, TName "Std.U5"); ("cofactor"%string, TUInt 2);
       ("crossSection"%string, TList (TName "TreeNode") 1 0xffffffff); ("entropy"%string, TOption (TUInt 8))]);
   ("MerkleConcealed"%string, TStruct                                               (* 33-35 *)
      [("depth"%string, TName "Std.U5"); ("cofactor"%string, TUInt 2); ("merkleRoot"%string, TName "MerkleHash")]);
   ("MerkleHash"%string, TBytes 32);                                                (* 38 *)
   ("MerkleNode"%string, TStruct                                                    (* 41-45 *)
      [("branching"%string, TName "NodeBranching"); ("depth"%string, TUInt 1); ("width"%string, TUInt 32);
       ("node1"%string, TName "MerkleHash"); ("node2"%string, TName "MerkleHash")]);
   ("MerkleProof"%string, TStruct                                                   (* 48-51 *)
      [("method"%string, TName "Method"); ("pos"%string, TUInt 4); ("cofactor"%string, TUInt 2);
       ("path"%string, TList (TName "MerkleHash") 0 0x20)]);
   ("MerkleTree"%string, TStruct                                                    (* 54-59 *)
      [("method"%string, TName "Method"); ("depth"%string, TName "Std.U5"); ("entropy"%string, TUInt 8);
       ("cofactor"%string, TUInt 2);
       ("messages"%string, TMap (TName "ProtocolId") (TName "Message") 0 0xffffff);
       ("map"%string, TMap (TUInt 4) (TTuple [TName "ProtocolId"; TName "Message"]) 0 0xffffff)]);
   ("Message"%string, TBytes 32);                                                   (* 62 *)
   ("Method"%string, TEnum [("sha256t"%string, 0)]);                                (* 65 *)
   ("NodeBranching"%string, TEnum [("void"%string, 0); ("single"%string, 1); ("branch"%string, 2)]); (* 69 *)
   ("ProtocolId"%string, TBytes 32);                                                (* 73 *)
   ("StrictHash"%string, TBytes 32);                                                (* 172 *)
   ("TreeNode"%string, TUnion                                                       (* 175-176 *)
      [("concealedNode"%string, 0, TStruct [("depth"%string, TName "Std.U5"); ("hash"%string, TName "MerkleHash")]);
       ("commitmentLeaf"%string, 1, TStruct [("protocolId"%string, TName "ProtocolId"); ("message"%string, TName "Message")])])]
  ++ map (fun r => (snd r, TBytes (fst r))) reserved_types.

(** Merkle.vesper:29-35: the same union as printed in the other file *)
Definition vesper_leaf : sty := TUnion
  [("inhabited"%string, 0, TStruct [("protocol"%string, TBytes 32); ("message"%string, TBytes 32)]);
   ("entropy"%string, 1, TStruct [("entropy"%string, TUInt 8); ("pos"%string, TUInt 4)])].

(** Merkle.vesper:13-14, 26-27, 37-38, 51-52, 80-81: the layouts, with the type they precede *)
Definition published_layouts : list (string * list string) :=
  [("MerkleNode"%string, ["commitment MerkleHash, hasher SHA256, tagged urn:ubideco:merkle:node#2024-01-31"%string;
                          "  serialized MerkleNode"%string]);
   ("Leaf"%string, ["commitment MerkleHash, hasher SHA256, tagged urn:ubideco:merkle:node#2024-01-31"%string;
                    "  serialized Leaf"%string]);
   ("MerkleConcealed"%string, ["commitment Commitment, hasher SHA256, tagged urn:ubideco:mpc:commitment#2024-01-31"%string;
                               "  serialized MerkleConcealed"%string]);
   ("MerkleBlock"%string, ["commitment Commitment, hasher SHA256, tagged urn:ubideco:mpc:commitment#2024-01-31"%string;
                           "  concealed MerkleConcealed, concealed MerkleConcealed"%string]);
   ("MerkleTree"%string, ["commitment Commitment, hasher SHA256, tagged urn:ubideco:mpc:commitment#2024-01-31"%string;
                          "  concealed MerkleConcealed, concealed MerkleConcealed"%string])].
