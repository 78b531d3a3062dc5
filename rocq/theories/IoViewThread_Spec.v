(** What threads that share a buffer, each with views of its own, may rely on. *)
From Verif Require Import Base Io_Model Io_Spec IoView_Model IoView_Spec IoThread_Model IoThread_Spec IoViewThread_Model.

(** A thread by itself: the buffer, where its views are, what its calls returned. *)
Record solo := Solo { so_buf : list byte; so_get : N; so_put : N; so_rets : list vret }.
(** One call of a view, as IoView_Model.v has it. *)
Definition solo_call (ev : env) (op : vop) (s : solo) : solo :=
  match op with
  | VR o => let '(v, x) := rv_step ev (RView (so_buf s) (so_get s)) o in
            Solo (rv_data v) (rv_pos v) (so_put s) (so_rets s ++ [VRo x])
  | VW o => let '(v, x) := wv_step ev (WView (so_buf s) (so_put s)) o in
            Solo (wv_data v) (so_get s) (wv_pos v) (so_rets s ++ [VWo x])
  end.
(** The first [n] calls of a thread with nobody else there. *)
Fixpoint solo_run (ev : env) (prog : program) (buf : list byte) (n : nat) : solo :=
  match n with
  | O => Solo buf 0 0 []
  | S m => let s := solo_run ev prog buf m in
           match prog (so_rets s) with Some op => solo_call ev op s | None => s end
  end.

(** The bytes a call asks for: from the position of its view. *)
Definition rop_size (op : rop) : N :=
  match op with
  | RRead ts | RTryRead ts => types_size ts
  | RReadRange t k | RTryReadRange t k => N.of_nat k * value_size t
  | RReadEndian n _ _ => N.of_nat n
  | RSeek _ | RTrySeek _ => 0
  end.
Definition wop_size (op : wop) : N :=
  match op with
  | WWrite args | WTryWrite args => args_size args
  | WWriteEndian n _ _ _ => N.of_nat n
  | WSeek _ | WTrySeek _ => 0
  end.
Definition asks (op : vop) (s : solo) (k : N) : Prop :=
  k < lenN (so_buf s) /\
  match op with
  | VR o => so_get s <= k < so_get s + rop_size o
  | VW o => so_put s <= k < so_put s + wop_size o
  end.
Definition stores_bytes (op : vop) : bool := match op with VW _ => true | VR _ => false end.
Definition vop_ok (op : vop) : Prop := match op with VR o => rop_ok o | VW o => wop_ok o end.

(** Whenever the thread, by itself, makes a call, the call is well-formed, it writes only bytes of [own] and reads only bytes of [sees]. *)
Definition keeps_to (ev : env) (buf : list byte) (prog : program) (own sees : N -> Prop) : Prop :=
  forall n op, prog (so_rets (solo_run ev prog buf n)) = Some op ->
    vop_ok op /\ forall k, asks op (solo_run ev prog buf n) k -> if stores_bytes op then own k else sees k.
(** Nobody else writes or reads the bytes a thread writes. *)
Definition shared_out (own sees : N -> N -> Prop) : Prop :=
  forall i j k, i <> j -> own i k -> ~ own j k /\ ~ sees j k.

Definition vreturned (st : vsystem) (i : N) : list vret := vt_rets (vs_thread st i).
Definition between_calls (st : vsystem) (i : N) : Prop := vt_now (vs_thread st i) = None.
(** The thread has nothing more to do. *)
Definition vdone (progs : N -> program) (st : vsystem) (i : N) : Prop :=
  between_calls st i /\ progs i (vreturned st i) = None.
(** A data race: two threads have accessed the same byte, one of them to store. *)
Definition vrace (st : vsystem) : Prop :=
  exists i j a b, In (i, a) (vs_trace st) /\ In (j, b) (vs_trace st) /\ i <> j /\
    access_at a = access_at b /\ (is_store a = true \/ is_store b = true).

(** Each thread has at most one job: to put its values at its place, by seek and write on its write view. *)
Definition job := option (N * list warg).
Definition fill (j : job) : program := fun rets =>
  match j, rets with
  | Some (at_, _), [] => Some (VW (WSeek at_))
  | Some (_, args), [_] => Some (VW (WWrite args))
  | _, _ => None
  end.
Definition job_bytes (j : job) (k : N) : Prop :=
  match j with Some (at_, args) => at_ <= k < at_ + args_size args | None => False end.
Definition job_ok (len : N) (j : job) : Prop :=
  match j with Some (at_, args) => args <> [] /\ Forall arg_ok args /\ at_ + args_size args <= len | None => True end.
