(** Histories of writes to a lookup table; translating sequences with it. *)
From Coq Require Import List. Import ListNotations.
From Verif Require Import Base Lookup_Model ListText_Spec.

Section S.
Context {K V : Type} (keq : K -> K -> bool).
(** try { table.at(k) = v; } catch (const std::out_of_range&) {} *)
Definition put (t : list (K * V)) (w : K * V) : list (K * V) :=
  match lk_at_write keq t (fst w) (snd w) with Ok t' => t' | _ => t end.
Definition puts (t : list (K * V)) (ws : list (K * V)) : list (K * V) := fold_left put ws t.
(** The last of the writes to this key. *)
Definition last_put (k : K) (ws : list (K * V)) : option V :=
  match filter (fun w => keq (fst w) k) (rev ws) with w :: _ => Some (snd w) | [] => None end.
End S.
