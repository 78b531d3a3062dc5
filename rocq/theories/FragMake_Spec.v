(** What the constructors of fragment strings promise. *)
From Verif Require Import Base String_Model Frag_Model Frag_Spec.

(** The memory at the pointer holds the C string [t]. *)
Definition c_string (mem t : list N) : Prop := ~ In 0 t /\ exists rest, mem = t ++ 0 :: rest.

(** The fragment string reads as [t] in every way: to_str, length, iteration. *)
Definition reads_as (fs : frags) (t : list N) : Prop :=
  text fs = t /\ length_of fs = lenN t /\ to_str fs = Ok t.
