(** Halving a range of integers again and again with mid(). *)
From Coq Require Import List ZArith. Import ListNotations.
From Verif Require Import Base Range_Model Range_Spec.

(** while (r.size() > 1) { m = r.mid(); if (yes(m)) r.max(m); else r.min(m); } return r;  in less than [rounds] rounds *)
Fixpoint halve (rounds : nat) (b : build) (t : ity) (lk hk : boundary) (yes : Z -> bool) (r : vrange Z) : outcome (vrange Z) :=
  match rounds with
  | O => Diverge
  | S k =>
      let! s := vr_size b t r in
      if (s <=? 1)%Z then Ok r
      else let! m := vr_mid b t r in
           let! r' := (if yes m then set_max zcmp b lk hk (int_prev t) r m else set_min zcmp b lk hk (int_next t) r m) in
           halve k b t lk hk yes r'
  end.
(** The usual search for the first value in [min, max) for which [yes] holds:
    while (!r.empty()) { m = r.mid(); if (yes(m)) r.max(m); else r.min(next_value(m)); } *)
Fixpoint first_yes (rounds : nat) (b : build) (t : ity) (yes : Z -> bool) (r : vrange Z) : outcome (vrange Z) :=
  match rounds with
  | O => Diverge
  | S k =>
      if vr_empty zcmp r then Ok r
      else let! m := vr_mid b t r in
           let! r' := (if yes m then set_max zcmp b closed opened (int_prev t) r m
                       else let! n := int_next t m in set_min zcmp b closed opened (int_next t) r n) in
           first_yes k b t yes r'
  end.
