(** What C75, C76, C83 and C84 mean, independently of the model. *)
From Verif Require Import Base Range_Model Range_Spec Point_Model.

(** The point whose coordinates are [vals]: every dimension can be read, and reads that value. *)
Definition is_point {V} (p : point V) (vals : list V) : Prop :=
  pt_dimensions p = length vals /\ forall i v, nth_error vals i = Some v -> pt_get p i = Ok v.

(** What dimension [i] holds after a series of assignments: the last one to [i], or what it
    held before. *)
Fixpoint last_set {V} (i : nat) (sets : list (nat * V)) (before : outcome V) : outcome V :=
  match sets with
  | [] => before
  | (j, v) :: r => last_set i r (if Nat.eqb j i then Ok v else before)
  end.
Fixpoint set_all {V} (p : point V) (sets : list (nat * V)) : outcome (point V) :=
  match sets with [] => Ok p | (j, v) :: r => let! q := pt_set p j v in set_all q r end.

(** The coordinates before dimension [i] are equal, those at [i] are [x] and [y]. *)
Definition agree_before {V} (cmp : V -> V -> option comparison) (vs ws : list V) (i : nat) : Prop :=
  forall j x y, (j < i)%nat -> nth_error vs j = Some x -> nth_error ws j = Some y -> cmp x y = Some Eq.
Definition decided_at {V} (cmp : V -> V -> option comparison) (vs ws : list V) (i : nat) (c : option comparison) : Prop :=
  agree_before cmp vs ws i /\ exists x y, nth_error vs i = Some x /\ nth_error ws i = Some y /\ cmp x y = c.

(** Texts with a separator between them. *)
Fixpoint joined (sep : list N) (l : list (list N)) : list N :=
  match l with [] => [] | [t] => t | t :: r => t ++ sep ++ joined sep r end.
Definition occurs_in (sub s : list N) : Prop := exists a b, s = a ++ sub ++ b.
(** Different values print differently, and never with the separator ", " (44, 32) inside. *)
Definition printable {V} (show : V -> list N) : Prop :=
  (forall x y, show x = show y -> x = y) /\ forall x, ~ occurs_in [44; 32] (show x).

Definition opening (k : boundary) : list N := match k with closed => [91; 32] | opened => [40; 32] end.
Definition closing (k : boundary) : list N := match k with closed => [32; 93] | opened => [32; 41] end.

(** [s] is the decimal numeral of [n], without leading zeros. *)
Definition numeral_of (n : N) (s : list N) : Prop :=
  s <> [] /\ Forall (fun c => 48 <= c <= 57) s /\ (hd 48 s = 48 -> s = [48]) /\
  fold_left (fun a c => 10 * a + (c - 48)) s 0 = n.
