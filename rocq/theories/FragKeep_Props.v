(** C107: iterators of fragment strings that a program keeps. *)
From Coq Require Import List. Import ListNotations.
From Verif Require Import Base Frag_Model FragKeep_Model FragKeep_Spec FragKeep_Proofs.
Local Open Scope N_scope.

(** C107: every program whose operations the positions settle shows what the positions say. *)
Theorem C107_kept_iterators : forall b texts ops xs w,
  Forall (proper_op texts) ops -> world_run b texts ops nowhere = Some (xs, w) -> fst (krun b texts ops kstart) = xs.
Proof. exact kept_iterators. Qed.
Print Assumptions C107_kept_iterators.

(** C107: without assertions a kept iterator goes on showing the character it was made for, even after its string has been assigned
    other texts or destroyed. *)
Theorem C107_read_after_assignment : forall texts v k vs n c mid,
  proper texts vs -> nth_error (content texts vs) (N.to_nat n) = Some c -> Forall about_strings mid ->
  fst (krun Release texts (KMake v vs :: KBegin k v :: KJump k (Z.of_N n) :: mid ++ [KRead k]) kstart) =
    Ok KDone :: Ok KDone :: Ok KDone :: map (fun _ => Ok KDone) mid ++ [Ok (KChar c)].
Proof. exact stale_read. Qed.
Print Assumptions C107_read_after_assignment.

(** C107: begin() kept from before an assignment equals the new begin() exactly if the string begins with the same text again. *)
Theorem C107_begin_after_assignment : forall b texts v k l t t' rest rest',
  k <> l -> length rest = length rest' -> texts t <> [] -> texts t' <> [] ->
  fst (krun b texts [KMake v (Some t :: rest); KBegin k v; KMake v (Some t' :: rest'); KBegin l v; KEq k l] kstart) =
    [Ok KDone; Ok KDone; Ok KDone; Ok KDone; Ok (KBool (t =? t'))].
Proof. exact stale_begin. Qed.
Print Assumptions C107_begin_after_assignment.

(** Texts "ab", "c", "xyz" and "". *)
Definition four (t : N) : list N :=
  if t =? 0 then [97; 98] else if t =? 1 then [99] else if t =? 2 then [120; 121; 122] else [].
Definition ab_c : views := [Some 0; Some 1].
Definition xyz_ab_c : views := [Some 2; Some 0; Some 1].
Lemma four_proper : proper four ab_c /\ proper four xyz_ab_c.
Proof.
  split; (split; [discriminate|split; [repeat constructor; eexists; (split; [reflexivity|discriminate])|reflexivity]]).
Qed.

(** Two strings, one copied, and four iterators. *)
Definition story : list kop :=
  [KMake 1 ab_c; KMake 2 xyz_ab_c; KBegin 10 1; KPlus 10 11 2; KEnd 12 1; KBegin 20 2; KRead 11; KInc 10; KRead 10;
   KMake 3 ab_c; KCopy 1 3; KDie 3; KJump 20 4; KRead 20; KRead 11; KDiff 12 10; KCmp 10 11; KEq 10 11; KDec 11; KEq 10 11;
   KMake 1 [Some 1; Some 0]; KMake 1 ab_c; KRead 10; KDie 2; KBack 12 3; KRead 12].
Definition story_shows : list (outcome kobs) :=
  [Ok KDone; Ok KDone; Ok KDone; Ok KDone; Ok KDone; Ok KDone; Ok (KChar 99); Ok KDone; Ok (KChar 98);
   Ok KDone; Ok KDone; Ok KDone; Ok KDone; Ok (KChar 98); Ok (KChar 99); Ok (KDist 2); Ok (KOrder Lt); Ok (KBool false); Ok KDone; Ok (KBool true);
   Ok KDone; Ok KDone; Ok (KChar 98); Ok KDone; Ok KDone; Ok (KChar 97)].
Example C107_nonvacuous : forall b,
  Forall (proper_op four) story /\
  (exists w, world_run b four story nowhere = Some (story_shows, w)) /\
  fst (krun b four story kstart) = story_shows.
Proof.
  intros b. assert (F : Forall (proper_op four) story).
  { destruct four_proper as [P Q]. unfold story. repeat constructor; try exact (proj1 P); try (apply P); try (apply Q).
    all: cbn [proper_op]; try discriminate; try reflexivity. all: try (repeat constructor; eexists; (split; [reflexivity|discriminate])). }
  split; [exact F|]. assert (W : exists w, world_run b four story nowhere = Some (story_shows, w)).
  { destruct b; eexists; match goal with |- ?x = _ => let y := eval vm_compute in x in exact (eq_refl y) end. }
  split; [exact W|]. destruct W as [w W]. exact (kept_iterators b four story _ w F W).
Qed.

(** Iterators of two strings, and steps outside a string. *)
Definition two_strings : list kop := [KMake 1 ab_c; KMake 2 ab_c; KBegin 10 1; KBegin 20 2].
Example C107_two_strings_nonvacuous :
  (exists w, world_run Release four (two_strings ++ [KEq 10 20]) nowhere =
     Some ([Ok KDone; Ok KDone; Ok KDone; Ok KDone; Ok (KBool false)], w)) /\
  (exists w, world_run DebugThrow four (two_strings ++ [KEq 10 20]) nowhere =
     Some ([Ok KDone; Ok KDone; Ok KDone; Ok KDone; Throw logic_error], w)) /\
  (exists w, world_run DebugAbort four (two_strings ++ [KDiff 10 20]) nowhere =
     Some ([Ok KDone; Ok KDone; Ok KDone; Ok KDone; Terminate], w)) /\
  (exists w, world_run DebugThrow four (two_strings ++ [KJump 10 4]) nowhere =
     Some ([Ok KDone; Ok KDone; Ok KDone; Ok KDone; Throw logic_error], w)).
Proof. repeat split; eexists; match goal with |- ?x = _ => let y := eval vm_compute in x in exact (eq_refl y) end. Qed.
Example C107_read_after_assignment_nonvacuous :
  proper four ab_c /\ nth_error (content four ab_c) (N.to_nat 2) = Some 99 /\
  fst (krun Release four [KMake 1 ab_c; KBegin 10 1; KJump 10 2; KMake 1 [Some 2; Some 2]; KDie 1; KRead 10] kstart) =
    [Ok KDone; Ok KDone; Ok KDone; Ok KDone; Ok KDone; Ok (KChar 99)].
Proof. split; [apply four_proper|]. split; reflexivity. Qed.
