(** Programs that read or write values through views in several calls. *)
From Coq Require Import List. Import ListNotations.
From Verif Require Import Base Io_Model Io_Spec IoView_Model.
Local Open Scope N_scope.

(** One read call for each group of types; stops at the first exception.  The view, and the values or the exception. *)
Fixpoint read_groups (ev : env) (v : rview) (gs : list (list vtype)) : rview * outcome (list value) :=
  match gs with
  | [] => (v, Ok [])
  | g :: r =>
      match rv_step ev v (RRead g) with
      | (v, Ok (ROVals a)) => let '(v, o) := read_groups ev v r in (v, let! b := o in Ok (a ++ b))
      | (v, Throw e) => (v, Throw e)
      | (v, _) => (v, UB)
      end
  end.

(** One try_read call for each group, whatever they return.  The view, and all the results. *)
Fixpoint try_read_groups (ev : env) (v : rview) (gs : list (list vtype)) : rview * outcome (list (result value read_error)) :=
  match gs with
  | [] => (v, Ok [])
  | g :: r =>
      match rv_step ev v (RTryRead g) with
      | (v, Ok (ROTry a)) => let '(v, o) := try_read_groups ev v r in (v, let! b := o in Ok (a ++ b))
      | (v, _) => (v, UB)
      end
  end.

(** One write call for each group of arguments; stops at the first exception.  The view, and the bytes written or the
    exception. *)
Fixpoint write_groups (ev : env) (v : wview) (gs : list (list warg)) : wview * outcome N :=
  match gs with
  | [] => (v, Ok 0)
  | g :: r =>
      match wv_step ev v (WWrite g) with
      | (v, Ok (WOCount a)) => let '(v, o) := write_groups ev v r in (v, let! b := o in Ok (a + b))
      | (v, Throw e) => (v, Throw e)
      | (v, _) => (v, UB)
      end
  end.

(** One try_write call for each group; stops at the first error. *)
Fixpoint try_write_groups (ev : env) (v : wview) (gs : list (list warg)) : wview * outcome (result N write_error) :=
  match gs with
  | [] => (v, Ok (RVal 0))
  | g :: r =>
      match wv_step ev v (WTryWrite g) with
      | (v, Ok (WOTry (RVal a))) =>
          let '(v, o) := try_write_groups ev v r in
          (v, let! b := o in Ok (match b with RVal n => RVal (a + n) | RErr e => RErr e end))
      | (v, Ok (WOTry (RErr e))) => (v, Ok (RErr e))
      | (v, _) => (v, UB)
      end
  end.

(** Groups that calls can be made with: none is empty, and all values exist. *)
Definition read_groups_ok (gs : list (list vtype)) : Prop :=
  gs <> [] /\ Forall (fun g => g <> []) gs /\ Forall vtype_ok (concat gs) /\ types_size (concat gs) < 2 ^ 63.
Definition write_groups_ok (gs : list (list warg)) : Prop :=
  gs <> [] /\ Forall (fun g => g <> []) gs /\ Forall arg_ok (concat gs) /\ args_size (concat gs) < 2 ^ 63.
