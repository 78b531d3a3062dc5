(** What copying bytes within a buffer should do, and what copying them one by one does. *)
From Coq Require Import List. Import ListNotations.
From Verif Require Import Base.
Local Open Scope N_scope.

(** The byte at an offset. *)
Definition at_ (buf : list byte) (i : N) : option byte := nth_error buf (N.to_nat i).

(** [buf'] is [buf] with the [k] bytes from [dst] on replaced by what the [k] bytes from [src] on were, as memmove does. *)
Definition moved (buf : list byte) (src dst k : N) (buf' : list byte) : Prop :=
  lenN buf' = lenN buf /\
  (forall i, i < k -> at_ buf' (dst + i) = at_ buf (src + i)) /\
  (forall i, i < dst \/ dst + k <= i -> at_ buf' i = at_ buf i).

(** [buf'] is [buf] with the [dst - src] bytes before [dst] repeated over the [k] bytes from [dst] on. *)
Definition repeated (buf : list byte) (src dst k : N) (buf' : list byte) : Prop :=
  lenN buf' = lenN buf /\
  (forall i, i < k -> at_ buf' (dst + i) = at_ buf (src + i mod (dst - src))) /\
  (forall i, i < dst \/ dst + k <= i -> at_ buf' i = at_ buf i).
