(** C129: many ranges at once. *)
From Coq Require Import List Permutation Lia ZArith. Import ListNotations.
From Verif Require Import Base Range_Model Range_Spec Range_Proofs IntRange_Proofs Merge_Spec Merge_Proofs.

(** Overlapping one range after the other: the result has the members that all have; if there is none, no value is in all. *)
Theorem C129_common : forall T (ok : T -> Prop) cmp le, ordered ok cmp le -> forall b lk hk r rs, Forall (valid ok le) (r :: rs) ->
  exists o, common cmp b r rs = Ok o /\
    match o with
    | Some q => valid ok le q /\ greatest le (vmin q) (map vmin (r :: rs)) /\ least le (vmax q) (map vmax (r :: rs)) /\
                forall x, ok x -> in_interval le lk hk q x <-> forall s, In s (r :: rs) -> in_interval le lk hk s x
    | None => forall x, ok x -> ~ forall s, In s (r :: rs) -> in_interval le lk hk s x
    end.
Proof. exact @common_ok. Qed.
Print Assumptions C129_common.

(** There is none exactly if two of the ranges do not overlap. *)
Theorem C129_pairs : forall T (ok : T -> Prop) cmp le, ordered ok cmp le -> forall b r rs, Forall (valid ok le) (r :: rs) ->
  common cmp b r rs = Ok None <-> exists s t, In s (r :: rs) /\ In t (r :: rs) /\ overlap cmp b s t = Ok None.
Proof. exact @common_pairs. Qed.
Print Assumptions C129_pairs.

Theorem C129_any_order : forall T (ok : T -> Prop) cmp le, ordered ok cmp le -> forall b r rs s ss, Forall (valid ok le) (r :: rs) ->
  Permutation (r :: rs) (s :: ss) -> same_opt le (common cmp b r rs) (common cmp b s ss).
Proof. exact @common_order. Qed.
Print Assumptions C129_any_order.

(** Merging gives separate ranges, in order, with exactly the members of the given ones, if one kind of end is closed. *)
Theorem C129_merge_partial : forall T (ok : T -> Prop) cmp le, ordered ok cmp le -> forall b lk hk rs, ~ (lk = opened /\ hk = opened) ->
  Forall (valid ok le) rs -> by_start le rs ->
  exists ms, merge cmp b rs = Ok ms /\ Forall (valid ok le) ms /\ separate le ms /\
    forall x, ok x -> in_some le lk hk ms x <-> in_some le lk hk rs x.
Proof. exact @merge_exact. Qed.
Print Assumptions C129_merge_partial.

(** In any case no member is lost, and one that is added is where one range ends and another starts. *)
Theorem C129_merge_any_partial : forall T (ok : T -> Prop) cmp le, ordered ok cmp le -> forall b lk hk rs, Forall (valid ok le) rs -> by_start le rs ->
  exists ms, merge cmp b rs = Ok ms /\ Forall (valid ok le) ms /\ separate le ms /\
    (forall q, In q ms -> In (vmin q) (map vmin rs) /\ In (vmax q) (map vmax rs)) /\
    (forall x, ok x -> in_some le lk hk rs x -> in_some le lk hk ms x) /\
    (forall x, ok x -> in_some le lk hk ms x -> in_some le lk hk rs x \/
       (lk = opened /\ hk = opened /\ exists p q, In p rs /\ In q rs /\ equiv le x (vmax p) /\ equiv le x (vmin q))).
Proof. exact @merge_ok. Qed.
Print Assumptions C129_merge_any_partial.

(** With open ends, (0, 2) and (2, 4) become (0, 4): 2 is added. *)
Theorem C129_merge_refuted : exists rs ms : list (vrange Z), Forall (valid anything Z.le) rs /\ by_start Z.le rs /\
  merge zcmp Release rs = Ok ms /\ in_some Z.le opened opened ms 2%Z /\ ~ in_some Z.le opened opened rs 2%Z.
Proof. exact merge_refuted. Qed.
Print Assumptions C129_merge_refuted.

Example C129_nonvacuous :
  ordered anything zcmp Z.le /\
  (let rs := [VR 0 5; VR 3 9; VR 4 4; VR 9 10; VR 12 13; VR 13 20]%Z in
   Forall (valid anything Z.le) rs /\ by_start Z.le rs /\ merge zcmp DebugAbort rs = Ok [VR 0 10; VR 12 20]%Z) /\
  common zcmp DebugAbort (VR 0 5)%Z [VR 3 9; VR (-2) 4]%Z = Ok (Some (VR 3 4))%Z /\
  common zcmp DebugAbort (VR 0 5)%Z [VR 3 9; VR 7 8]%Z = Ok None /\ overlap zcmp DebugAbort (VR 0 5)%Z (VR 7 8)%Z = Ok None.
Proof.
  split; [exact (z_ordered anything)|]. split; [|vm_compute; repeat split].
  split; [repeat (apply Forall_cons; [unfold valid, anything; cbn [vmin vmax]; repeat split; lia|]); constructor|].
  split; [unfold by_start; cbn [neighbours vmin vmax]; lia|vm_compute; reflexivity].
Qed.
