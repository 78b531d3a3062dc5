(** C130: writing into a buffer that is made larger until everything fits. *)
From Coq Require Import List NArith Lia. Import ListNotations.
From Verif Require Import Base Io_Model Io_Spec IoView_Model IoView_Spec Grow_Spec Grow_Proofs.
Local Open Scope N_scope.

(** An attempt on any buffer goes through exactly when the furthest byte written or sought lies in the buffer. *)
Theorem C130_fits_exactly : forall ev w buf, Forall wstep_ok w -> lenN buf < ptr_max ->
  exists v, attempt ev w (wv_init buf) = Ok (extent 0 w <=? lenN buf, v) /\ lenN (wv_data v) = lenN buf.
Proof. exact fits_exactly. Qed.
Print Assumptions C130_fits_exactly.

Theorem C130_try_fits_exactly : forall ev w buf, Forall wstep_ok w -> lenN buf < ptr_max ->
  exists v, try_attempt ev w (wv_init buf) = Ok (extent 0 w <=? lenN buf, v) /\ lenN (wv_data v) = lenN buf.
Proof. exact try_fits_exactly. Qed.
Print Assumptions C130_try_fits_exactly.

(** With room enough the calls that throw and those that report write the same. *)
Theorem C130_try_same : forall ev w buf, Forall wstep_ok w -> lenN buf < ptr_max -> extent 0 w <= lenN buf ->
  try_attempt ev w (wv_init buf) = attempt ev w (wv_init buf).
Proof. exact try_same. Qed.
Print Assumptions C130_try_same.

(** More room than needed changes nothing: the rest of the buffer keeps its bytes. *)
Theorem C130_same_bytes : forall ev w buf more, Forall wstep_ok w -> lenN buf + lenN more < ptr_max -> extent 0 w <= lenN buf ->
  exists data pos, attempt ev w (wv_init buf) = Ok (true, WView data pos) /\ attempt ev w (wv_init (buf ++ more)) = Ok (true, WView (data ++ more) pos).
Proof. exact same_bytes. Qed.
Print Assumptions C130_same_bytes.

(** The loop stops at the first size that is enough, and what it leaves is what one attempt on a fresh buffer of that size
    leaves: nothing of the attempts that failed remains. *)
Theorem C130_grow : forall ev w sizes, Forall wstep_ok w -> ascending 0 sizes -> Forall (fun n => n < ptr_max) sizes ->
  grow (attempt ev w) sizes [] =
    match find (fun n => extent 0 w <=? n) sizes with
    | Some n => let! (_, v) := attempt ev w (wv_init (repeat x00 (N.to_nat n))) in Ok (Some v)
    | None => Ok None
    end.
Proof. exact grow_thm. Qed.
Print Assumptions C130_grow.

(** The same with try_write, which may write part of its values before it reports that they do not fit. *)
Theorem C130_try_grow : forall ev w sizes, Forall wstep_ok w -> ascending 0 sizes -> Forall (fun n => n < ptr_max) sizes ->
  grow (try_attempt ev w) sizes [] =
    match find (fun n => extent 0 w <=? n) sizes with
    | Some n => let! (_, v) := attempt ev w (wv_init (repeat x00 (N.to_nat n))) in Ok (Some v)
    | None => Ok None
    end.
Proof. exact try_grow_thm. Qed.
Print Assumptions C130_try_grow.

(** Two values, a jump back over the first, and a jump ahead; the sizes 3 and 6 are too small. *)
Definition saved := [Put [AVal (TPlain (SInt 2 false)) (VInt 1); AVal (TEnc big 4 false) (VInt 2)]; Jump 0;
                     Put [AVal (TPlain (SInt 1 false)) (VInt 255)]; Jump 8].
Example C130_nonvacuous :
  Forall wstep_ok saved /\ ascending 0 [3; 6; 9; 12] /\ extent 0 saved = 8 /\
  attempt (Env little little) saved (wv_init (repeat x00 6)) = Ok (false, WView [xff; x00; x00; x00; x00; x02] 1) /\
  try_attempt (Env little little) saved (wv_init (repeat x00 3)) = Ok (false, WView [x01; x00; x00] 0) /\
  grow (attempt (Env little little) saved) [3; 6; 9; 12] [] = Ok (Some (WView [xff; x00; x00; x00; x00; x02; x00; x00; x00] 8)) /\
  grow (try_attempt (Env little little) saved) [3; 6; 9; 12] [] = Ok (Some (WView [xff; x00; x00; x00; x00; x02; x00; x00; x00] 8)) /\
  grow (attempt (Env little little) saved) [3; 6] [] = Ok None.
Proof.
  split; [|repeat split; try (vm_compute; reflexivity); vm_compute; discriminate].
  repeat constructor; try discriminate; cbn; lia.
Qed.
