(** What C68-C72 and C79-C81 mean, independently of the model. *)
From Coq Require Import Permutation.
From Verif Require Import Base Range_Model.

(** A total order [le] on the values that satisfy [ok] (for floating point: not a NaN).
    Values may be equivalent without being the same, as -0.0 and 0.0. *)
Record total_order {T} (ok : T -> Prop) (le : T -> T -> Prop) : Prop := {
  to_total : forall x y, ok x -> ok y -> le x y \/ le y x;
  to_trans : forall x y z, ok x -> ok y -> ok z -> le x y -> le y z -> le x z }.
(** The type's operators compute that order. *)
Definition computes {T} (ok : T -> Prop) (cmp : T -> T -> option comparison) (le : T -> T -> Prop) : Prop :=
  forall x y, ok x -> ok y ->
    match cmp x y with
    | Some Lt => le x y /\ ~ le y x
    | Some Eq => le x y /\ le y x
    | Some Gt => le y x /\ ~ le x y
    | None => False
    end.
Definition ordered {T} (ok : T -> Prop) (cmp : T -> T -> option comparison) (le : T -> T -> Prop) : Prop :=
  total_order ok le /\ computes ok cmp le.
(** Equivalent values are the same. *)
Definition antisym {T} (ok : T -> Prop) (le : T -> T -> Prop) : Prop :=
  forall x y, ok x -> ok y -> le x y -> le y x -> x = y.
Definition lt_of {T} (le : T -> T -> Prop) (x y : T) : Prop := le x y /\ ~ le y x.

(** The mathematical interval. *)
Definition after_start {T} (le : T -> T -> Prop) (k : boundary) (a x : T) : Prop :=
  match k with closed => le a x | opened => lt_of le a x end.
Definition before_end {T} (le : T -> T -> Prop) (k : boundary) (b x : T) : Prop :=
  match k with closed => le x b | opened => lt_of le x b end.
Definition in_interval {T} (le : T -> T -> Prop) (lk hk : boundary) (r : vrange T) (x : T) : Prop :=
  after_start le lk (vmin r) x /\ before_end le hk (vmax r) x.
(** A range whose ends are values in the right order. *)
Definition valid {T} (ok : T -> Prop) (le : T -> T -> Prop) (r : vrange T) : Prop :=
  ok (vmin r) /\ ok (vmax r) /\ le (vmin r) (vmax r).

(** [m] is a least (greatest) element of the list. *)
Definition least {T} (le : T -> T -> Prop) (m : T) (l : list T) : Prop := In m l /\ forall x, In x l -> le m x.
Definition greatest {T} (le : T -> T -> Prop) (m : T) (l : list T) : Prop := In m l /\ forall x, In x l -> le x m.
(** ... and no element before it is equivalent to it. *)
Definition first_least {T} (le : T -> T -> Prop) (m : T) (l : list T) : Prop :=
  exists l1 l2, l = l1 ++ m :: l2 /\ (forall x, In x l1 -> lt_of le m x) /\ forall x, In x l2 -> le m x.
Definition first_greatest {T} (le : T -> T -> Prop) (m : T) (l : list T) : Prop :=
  exists l1 l2, l = l1 ++ m :: l2 /\ (forall x, In x l1 -> lt_of le x m) /\ forall x, In x l2 -> le x m.

Definition z_ok (t : ity) (x : Z) : Prop := (it_lo t <= x <= it_hi t)%Z.
Definition anything {T} (_ : T) : Prop := True.
(** What the value range of an integer type means. *)
Definition usual (t : ity) : Prop := In (it_bits t) [8; 16; 32; 64]%Z.
(** Ranges with equivalent ends; the same for optional ranges. *)
Definition same_range {T} (le : T -> T -> Prop) (r s : vrange T) : Prop :=
  le (vmin r) (vmin s) /\ le (vmin s) (vmin r) /\ le (vmax r) (vmax s) /\ le (vmax s) (vmax r).
Definition same_opt {T} (le : T -> T -> Prop) (o p : outcome (option (vrange T))) : Prop :=
  match o, p with
  | Ok None, Ok None => True
  | Ok (Some r), Ok (Some s) => same_range le r s
  | _, _ => False
  end.

(** Exactly one of the three. *)
Definition one_of3 (p q r : Prop) : Prop := (p /\ ~ q /\ ~ r) \/ (~ p /\ q /\ ~ r) \/ (~ p /\ ~ q /\ r).
(** y lies on the way from x to z, so that z is not closer to x than y. *)
Definition on_the_way {T} (le : T -> T -> Prop) (x y z : T) : Prop := (le x y /\ le y z) \/ (le z y /\ le y x).
(** [r] is the smallest closed range with all of [l] inside. *)
Definition closed_hull {T} (ok : T -> Prop) (le : T -> T -> Prop) (r : vrange T) (l : list T) : Prop :=
  valid ok le r /\ (forall x, In x l -> in_interval le closed closed r x) /\
  forall q, valid ok le q -> (forall x, In x l -> in_interval le closed closed q x) ->
    forall x, ok x -> in_interval le closed closed r x -> in_interval le closed closed q x.
(** (r overlap s) overlap t and r overlap (s overlap t), where nothing overlaps with nothing. *)
Definition overlap_left {T} (ov : vrange T -> vrange T -> outcome (option (vrange T))) (r s t : vrange T) : outcome (option (vrange T)) :=
  let! o := ov r s in match o with None => Ok None | Some q => ov q t end.
Definition overlap_right {T} (ov : vrange T -> vrange T -> outcome (option (vrange T))) (r s t : vrange T) : outcome (option (vrange T)) :=
  let! o := ov s t in match o with None => Ok None | Some q => ov r q end.

(** * Integers *)
(** There is an integer inside. *)
Definition inhabited (lk hk : boundary) (r : vrange Z) : Prop := exists x, in_interval Z.le lk hk r x.
(** The half-way point, rounded up. *)
Definition half_way (a b m : Z) : Prop := (a + b <= 2 * m <= a + b + 1)%Z.
(** How a failed assertion shows. *)
Definition assertion_fails (b : build) {A} (o : outcome A) : Prop :=
  match b with Release => False | DebugAbort => o = Terminate | DebugThrow => o = Throw logic_error end.
