(** Writing into a buffer that is made larger until everything fits. *)
From Coq Require Import List. Import ListNotations.
From Verif Require Import Base Io_Model Io_Spec IoView_Model IoView_Spec.
Local Open Scope N_scope.

(** What is to be written: values and ranges where the view is, or a new place for it. *)
Inductive wstep := Put (args : list warg) | Jump (p : N).
Definition wstep_ok (s : wstep) : Prop := match s with Put args => wop_ok (WWrite args) | Jump p => wop_ok (WSeek p) end.

(** try { view.write(...); view.seek(...); ... return true; } catch (const std::out_of_range&) { return false; } *)
Fixpoint attempt (ev : env) (w : list wstep) (v : wview) : outcome (bool * wview) :=
  match w with
  | [] => Ok (true, v)
  | Put args :: r =>
      match wv_step ev v (WWrite args) with
      | (v, Ok (WOCount _)) => attempt ev r v
      | (v, Throw out_of_range) => Ok (false, v)
      | _ => UB
      end
  | Jump p :: r =>
      match wv_step ev v (WSeek p) with
      | (v, Ok WOUnit) => attempt ev r v
      | (v, Throw out_of_range) => Ok (false, v)
      | _ => UB
      end
  end.
(** The same with try_write and try_seek, until one reports an error. *)
Fixpoint try_attempt (ev : env) (w : list wstep) (v : wview) : outcome (bool * wview) :=
  match w with
  | [] => Ok (true, v)
  | Put args :: r =>
      match wv_step ev v (WTryWrite args) with
      | (v, Ok (WOTry (RVal _))) => try_attempt ev r v
      | (v, Ok (WOTry (RErr _))) => Ok (false, v)
      | _ => UB
      end
  | Jump p :: r =>
      match wv_step ev v (WTrySeek p) with
      | (v, Ok (WOSeek (RVal _))) => try_attempt ev r v
      | (v, Ok (WOSeek (RErr _))) => Ok (false, v)
      | _ => UB
      end
  end.

(** std::vector::resize *)
Definition resized (buf : list byte) (n : N) : list byte := takeN n buf ++ repeat x00 (N.to_nat (n - lenN buf)).
(** std::vector<std::byte> buf; for (n : sizes) { buf.resize(n); view v{buf}; if (attempt(v)) return; }  What the buffer holds
    then, and where the view is; nothing if no size was enough. *)
Fixpoint grow (once : wview -> outcome (bool * wview)) (sizes : list N) (buf : list byte) : outcome (option wview) :=
  match sizes with
  | [] => Ok None
  | n :: ns =>
      let! (ok, v) := once (wv_init (resized buf n)) in
      if ok : bool then Ok (Some v) else grow once ns (wv_data v)
  end.

(** The bytes needed. *)
Fixpoint extent (pos : N) (w : list wstep) : N :=
  match w with
  | [] => 0
  | Put args :: r => N.max (pos + args_size args) (extent (pos + args_size args) r)
  | Jump p :: r => N.max p (extent p r)
  end.
Fixpoint ascending (from : N) (sizes : list N) : Prop :=
  match sizes with [] => True | n :: ns => from <= n /\ ascending n ns end.
