(** C131: clamping into one range after the other. *)
From Coq Require Import List Permutation Lia ZArith. Import ListNotations.
From Verif Require Import Base Range_Model Range_Spec Range_Proofs IntRange_Proofs Merge_Spec Merge_Proofs ClampAll_Spec ClampAll_Proofs.

(** If some value is in all of the ranges the result is in all of them, and no such value is nearer ... *)
Theorem C131_nearest : forall T (ok : T -> Prop) cmp le, ordered ok cmp le -> forall rs x v, Forall (valid ok le) rs -> ok x -> ok v -> in_all le rs v ->
  exists y, clamp_all cmp rs x = Ok y /\ ok y /\ in_all le rs y /\ forall z, ok z -> in_all le rs z -> on_the_way le x y z.
Proof. exact @nearest. Qed.
Print Assumptions C131_nearest.

(** ... so that the order of the ranges does not matter ... *)
Theorem C131_any_order : forall T (ok : T -> Prop) cmp le, ordered ok cmp le -> forall rs ss x v, Forall (valid ok le) rs -> Permutation rs ss ->
  ok x -> ok v -> in_all le rs v -> same_value le (clamp_all cmp rs x) (clamp_all cmp ss x).
Proof. exact @any_order. Qed.
Print Assumptions C131_any_order.

(** ... and it is the value clamped into what the ranges have in common. *)
Theorem C131_common : forall T (ok : T -> Prop) cmp le, ordered ok cmp le -> forall b r rs q x, Forall (valid ok le) (r :: rs) -> ok x ->
  common cmp b r rs = Ok (Some q) -> same_value le (clamp_all cmp (r :: rs) x) (clamp cmp q x).
Proof. exact @into_common. Qed.
Print Assumptions C131_common.

(** Otherwise the order matters ... *)
Theorem C131_order_matters : exists rs ss : list (vrange Z), exists x y, Forall (valid anything Z.le) rs /\ Permutation rs ss /\
  clamp_all zcmp rs 7%Z = Ok x /\ clamp_all zcmp ss 7%Z = Ok y /\ x <> y.
Proof. exact order_refuted. Qed.
Print Assumptions C131_order_matters.

(** ... but for any ranges there is one that does the same: that from the smallest to the greatest result ... *)
Theorem C131_one_range : forall T (ok : T -> Prop) cmp le, ordered ok cmp le -> forall r rs, Forall (valid ok le) (r :: rs) ->
  exists lo hi, clamp_all cmp rs (vmin r) = Ok lo /\ clamp_all cmp rs (vmax r) = Ok hi /\ valid ok le (VR lo hi) /\
    forall x, ok x -> same_value le (clamp_all cmp (r :: rs) x) (clamp cmp (VR lo hi) x).
Proof. exact @one_range. Qed.
Print Assumptions C131_one_range.

(** ... a second time changes nothing, greater values give greater results, and the result is in the last range. *)
Theorem C131_twice : forall T (ok : T -> Prop) cmp le, ordered ok cmp le -> forall rs x, Forall (valid ok le) rs -> ok x ->
  same_value le (clamp_all cmp rs x) (let! y := clamp_all cmp rs x in clamp_all cmp rs y).
Proof. exact @twice. Qed.
Print Assumptions C131_twice.
Theorem C131_monotone : forall T (ok : T -> Prop) cmp le, ordered ok cmp le -> forall rs x y, Forall (valid ok le) rs -> ok x -> ok y -> le x y ->
  exists u w, clamp_all cmp rs x = Ok u /\ clamp_all cmp rs y = Ok w /\ le u w.
Proof. exact @monotone. Qed.
Print Assumptions C131_monotone.
Theorem C131_last : forall T (ok : T -> Prop) cmp le, ordered ok cmp le -> forall rs r x, Forall (valid ok le) (rs ++ [r]) -> ok x ->
  exists y, clamp_all cmp (rs ++ [r]) x = Ok y /\ ok y /\ in_interval le closed closed r y.
Proof. exact @in_last. Qed.
Print Assumptions C131_last.

Example C131_nonvacuous : ordered anything zcmp Z.le /\ Forall (valid anything Z.le) [VR 0 10; VR 4 20; VR (-3) 8]%Z /\
  in_all Z.le [VR 0 10; VR 4 20; VR (-3) 8]%Z 5%Z /\
  common zcmp DebugThrow (VR 0 10)%Z [VR 4 20; VR (-3) 8]%Z = Ok (Some (VR 4 8)%Z) /\
  clamp_all zcmp [VR 0 10; VR 4 20; VR (-3) 8]%Z 30%Z = Ok 8%Z /\ clamp_all zcmp [VR 0 10; VR 4 20; VR (-3) 8]%Z (-30)%Z = Ok 4%Z /\
  clamp_all zcmp [VR 0 1; VR 2 3]%Z 7%Z = Ok 2%Z.
Proof.
  split; [exact (z_ordered _)|]. split; [repeat (apply Forall_cons; [unfold valid, anything; cbn [vmin vmax]; repeat split; lia|]); constructor|].
  split; [|repeat split]. intros s [<-|[<-|[<-|[]]]]; split; cbn; lia.
Qed.
