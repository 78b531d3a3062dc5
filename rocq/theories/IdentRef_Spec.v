(** What C100 means. *)
From Coq Require Import List. Import ListNotations.
From Verif Require Import Base Iter_Model Ident_Model.
Local Open Scope N_scope.

(** The calls that take the item with this id out of the collection (if it is there). *)
Definition removes (id : N) (o : iop) : Prop :=
  match o with
  | IErase i => i = id
  | IEraseEach ids => In id ids
  | IExcise i => i = id
  | IClear => True
  | _ => False
  end.
(** Those that also destroy it: excise hands it to the caller instead. *)
Definition destroys (id : N) (o : iop) : Prop := removes id o /\ o <> IExcise id.
(** The first call that takes the item out destroys it. *)
Definition destroyed_in (id : N) (ops : list iop) : Prop :=
  exists before o after, ops = before ++ o :: after /\ Forall (fun o => ~ removes id o) before /\ destroys id o.
