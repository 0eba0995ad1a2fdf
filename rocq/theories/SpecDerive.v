(** Specification of the arguments of [#[commit_encode(..)]]. *)
From Verif Require Import Base EngineIo.
Local Open Scope nat_scope.

(** Names of the strategies *)
Definition strategy_name (s : strategy_attr) : string :=
  match s with
  | StrategyStrict => "strict"
  | StrategyConceal => "conceal"
  | StrategyTransparent => "transparent"
  | StrategyMerklize => "merklize"
  end.

(** The arguments, each given at most once, say this. *)
Definition attr_says (args : list (string * string)) (crate : string) (s : strategy_attr) (id : string) : Prop :=
  NoDup (map fst args) /\
  (forall k v, In (k, v) args -> k = "crate" \/ k = "id" \/ k = "strategy")%string /\
  In ("id", id)%string args /\
  In ("strategy"%string, strategy_name s) args /\
  (In ("crate"%string, crate) args \/
   (forall v, ~ In ("crate"%string, v) args) /\ crate = "commit_verify"%string).
