(** std::collections::BTreeMap / BTreeSet (and their [Confined] wrappers) as
    key-sorted association lists.  The standard library is outside /repo; this is
    its documented behaviour.  Definitions only. *)
From Verif Require Import Base.

Section Map.
  Context {K V : Type} (ltb : K -> K -> bool).

  (** BTreeMap::insert: the new map and the value that was present before. *)
  Fixpoint om_insert (k : K) (v : V) (m : list (K * V)) : option V * list (K * V) :=
    match m with
    | [] => (None, [(k, v)])
    | (k', v') :: r =>
        if ltb k k' then (None, (k, v) :: m)
        else if ltb k' k then
          let '(o, r') := om_insert k v r in (o, (k', v') :: r')
        else (Some v', (k, v) :: r)
    end.

  (** BTreeMap::get *)
  Fixpoint om_get (k : K) (m : list (K * V)) : option V :=
    match m with
    | [] => None
    | (k', v') :: r =>
        if ltb k k' then None else if ltb k' k then om_get k r else Some v'
    end.

  (** Building from an iterator ([collect], [try_from_iter]): later entries
      replace earlier ones. *)
  Definition om_of_list (l : list (K * V)) : list (K * V) :=
    fold_left (fun m e => snd (om_insert (fst e) (snd e) m)) l [].

  (** A value of type BTreeMap: keys strictly increasing. *)
  Fixpoint om_sorted (m : list (K * V)) : bool :=
    match m with
    | [] => true
    | (k, _) :: r =>
        match r with
        | [] => true
        | (k', _) :: _ => ltb k k' && om_sorted r
        end
    end.
End Map.

Section Set_.
  Context {K : Type} (ltb : K -> K -> bool).
  (** BTreeSet::insert *)
  Fixpoint os_insert (k : K) (m : list K) : list K :=
    match m with
    | [] => [k]
    | k' :: r =>
        if ltb k k' then k :: m
        else if ltb k' k then k' :: os_insert k r
        else m
    end.
  (** iter().collect::<BTreeSet<_>>() *)
  Definition os_of_list (l : list K) : list K := fold_left (fun m k => os_insert k m) l [].
  (** BTreeSet::remove *)
  Fixpoint os_remove (k : K) (m : list K) : list K :=
    match m with
    | [] => []
    | k' :: r =>
        if ltb k k' then m
        else if ltb k' k then k' :: os_remove k r
        else r
    end.
End Set_.
