(** What calls on a vector do to its bytes, and when they keep a position of a view usable. *)
From Coq Require Import List. Import ListNotations.
From Verif Require Import Base Io_Model IoView_Model IoGrow_Model.
Local Open Scope N_scope.

(** The bytes after a call. *)
Definition bytes_after (buf : list byte) (o : vecop) : list byte :=
  match o with
  | VPush b => buf ++ [b]
  | VPop => removelast buf
  | VResize n => firstn (N.to_nat n) buf ++ repeat x00 (N.to_nat n - length buf)
  | VReserve _ | VShrink _ => buf
  | VClear => []
  | VAssign bs => bs
  | VSet k b => firstn (N.to_nat k) buf ++ [b] ++ skipn (S (N.to_nat k)) buf
  end.
(** The bytes after several calls. *)
Definition bytes_after_all (buf : list byte) (os : list vecop) : list byte := fold_left bytes_after os buf.

(** The calls are within their preconditions. *)
Definition allowed (buf : list byte) (o : vecop) : Prop :=
  match o with VPop => buf <> [] | VSet k _ => k < lenN buf | _ => True end.
Fixpoint all_allowed (buf : list byte) (os : list vecop) : Prop :=
  match os with [] => True | o :: r => allowed buf o /\ all_allowed (bytes_after buf o) r end.

(** A vector of capacity [cap] need not move its bytes for the call, and position [p] is before every place where
    bytes come or go. *)
Definition keeps (p : N) (buf : list byte) (cap : N) (o : vecop) : bool :=
  match o with
  | VPush _ => (lenN buf <? cap) && (p <? lenN buf)
  | VPop => p + 1 <? lenN buf
  | VResize n => (n =? lenN buf) || ((n <=? cap) && (p <? n) && (p <? lenN buf))
  | VReserve n => n <=? cap
  | VShrink r => negb r
  | VClear | VAssign _ => false
  | VSet _ _ => true
  end.
(** So do all the calls: until one does not, the capacity stays. *)
Fixpoint all_keep (p : N) (buf : list byte) (cap : N) (os : list vecop) : bool :=
  match os with [] => true | o :: r => keeps p buf cap o && all_keep p (bytes_after buf o) cap r end.

(** Calls on a view other than seek and try_seek. *)
Definition uses_position (o : rop) : bool := match o with RSeek _ | RTrySeek _ => false | _ => true end.
Definition uses_position_w (o : wop) : bool := match o with WSeek _ | WTrySeek _ => false | _ => true end.
