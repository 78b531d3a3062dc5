(** C117: fragment strings and token views follow the text they refer to. *)
From Coq Require Import List. Import ListNotations.
From Verif Require Import Base String_Model TextLife_Model TextLife_Spec TextLife_Proofs.
Local Open Scope N_scope.

(** Every program shows what the specification says, and is undefined exactly where it says. *)
Theorem C117_follows_the_text : forall p,
  match effects nothing_yet p with
  | Some (xs, _) => exists s, trun tstart p = Ok (xs, s)
  | None => trun tstart p = UB
  end.
Proof. exact text_refines. Qed.
Print Assumptions C117_follows_the_text.

(** A view can be read exactly while the texts that it shows characters of live, and shows as many characters as its length. *)
Theorem C117_usable : forall p xs s v, trun tstart p = Ok (xs, s) ->
  (forall vs, t_var s v = Some (TFrag vs) ->
     (Forall (text_lives s) vs -> exists t, tstep s (TPrint v) = Ok (TText t, s) /\ tstep s (TLength v) = Ok (TNum (lenN t), s)) /\
     (~ Forall (text_lives s) vs -> tstep s (TPrint v) = UB)) /\
  (forall vs i x, t_var s v = Some (TViews vs) -> nth_error vs (N.to_nat i) = Some x ->
     (text_lives s x -> exists t, tstep s (TItem v i) = Ok (TText t, s)) /\
     (~ text_lives s x -> tstep s (TItem v i) = UB)).
Proof. exact text_usable. Qed.
Print Assumptions C117_usable.

(** Its length does not change, whatever happens to the texts. *)
Theorem C117_same_length : forall q s xs s1 v, trun s q = Ok (xs, s1) -> (forall o, In o q -> ~ assigns v o) ->
  forall n, tstep s (TLength v) = Ok (TNum n, s) -> tstep s1 (TLength v) = Ok (TNum n, s1).
Proof. exact text_same_length. Qed.
Print Assumptions C117_same_length.

(** Strings made by split_to and to_str stay as they were, whatever happens to the texts. *)
Theorem C117_copies_stay : forall q s xs s1 v ss, trun s q = Ok (xs, s1) -> (forall o, In o q -> ~ assigns v o) ->
  t_var s v = Some (TStrings ss) ->
  forall i t, nth_error ss (N.to_nat i) = Some t -> tstep s (TItem v i) = Ok (TText t, s) /\ tstep s1 (TItem v i) = Ok (TText t, s1).
Proof. exact text_copies_stay. Qed.
Print Assumptions C117_copies_stay.

(** As long as no text is changed or ends, everything shows what it showed. *)
Theorem C117_unchanged : forall q s xs s1 v, trun s q = Ok (xs, s1) ->
  (forall o, In o q -> ~ assigns v o /\ ~ ends_a_text o /\ ~ changes_text o) ->
  forall o t, o = TPrint v \/ o = TToStr v \/ (exists i, o = TItem v i) -> tstep s o = Ok (TText t, s) -> tstep s1 o = Ok (TText t, s1).
Proof. exact text_unchanged. Qed.
Print Assumptions C117_unchanged.

(** to_str and operator<< agree as long as no change of a text puts a NUL in it or takes one away. *)
Theorem C117_to_str_agrees : forall p xs s v vs, trun tstart p = Ok (xs, s) -> all_keep_nuls tstart p -> t_var s v = Some (TFrag vs) ->
  ~ In Null vs -> (forall n from len, In (Sv n from len) vs -> lives s n) ->
  exists t, tstep s (TToStr v) = Ok (TText t, s) /\ tstep s (TPrint v) = Ok (TText t, s) /\ tstep s (TLength v) = Ok (TNum (lenN t), s).
Proof. exact text_to_str. Qed.
Print Assumptions C117_to_str_agrees.

(** Otherwise they need not: "abc" whose b becomes a NUL still has three characters when it is printed, and one in to_str;
    without its terminator to_str runs past the end of the array. *)
Theorem C117_moved_nul_refuted : exists p, p = [TNew [97; 98; 99; 0]; TMake 0 0 0; TPoke 0 1 0] /\
  omap fst (trun tstart (p ++ [TLength 0; TPrint 0; TToStr 0])) =
    Ok [TNothing; TNothing; TNothing; TNum 3; TText [97; 0; 99]; TText [97]] /\
  omap fst (trun tstart [TNew [97; 98; 99; 0]; TMake 0 0 0; TPoke 0 3 100; TPrint 0]) =
    Ok [TNothing; TNothing; TNothing; TText [97; 98; 99]] /\
  trun tstart [TNew [97; 98; 99; 0]; TMake 0 0 0; TPoke 0 3 100; TToStr 0] = UB.
Proof. eexists. split; [reflexivity|]. repeat split; vm_compute; reflexivity. Qed.
Print Assumptions C117_moved_nul_refuted.

(** "ab cd" is split into views and into strings, both are kept while the text becomes "ax cd" and then ends. *)
Definition a_program : list top :=
  [TNew [97; 98; 32; 99; 100; 0]; TSplitViews 0 0 0 32 drop_empty; TSplitStrings 1 0 0 32 drop_empty;
   TMake 2 0 0; TNew [33; 0]; TMake 3 1 0; TPlus 4 2 3; TSave 5 4;
   TPoke 0 1 120; TItem 0 0; TItem 0 1; TItem 1 0; TPrint 4; TToStr 4; TItem 5 0].
Example C117_nonvacuous :
  omap fst (trun tstart a_program) =
    Ok [TNothing; TNothing; TNothing; TNothing; TNothing; TNothing; TNothing; TNothing; TNothing;
        TText [97; 120]; TText [99; 100]; TText [97; 98]; TText [97; 120; 32; 99; 100; 33]; TText [97; 120; 32; 99; 100; 33];
        TText [97; 98; 32; 99; 100; 33]] /\
  (exists s xs, trun tstart a_program = Ok (xs, s) /\ lives s 0 /\ lives s 1) /\
  (exists t, omap fst (trun tstart (a_program ++ [TEnd 0; TLength 4; TItem 1 1; TPrint 3])) = Ok (t ++ [TNothing; TNum 6; TText [99; 100]; TText [33]])) /\
  trun tstart (a_program ++ [TEnd 0; TItem 0 0]) = UB /\ trun tstart (a_program ++ [TEnd 0; TPrint 4]) = UB /\
  all_keep_nuls tstart a_program.
Proof.
  split; [vm_compute; reflexivity|]. split.
  { eexists. eexists. split; [match goal with |- ?x = _ => let y := eval vm_compute in x in exact (eq_refl y) end|]. split; eexists; vm_compute; reflexivity. }
  split.
  { exists [TNothing; TNothing; TNothing; TNothing; TNothing; TNothing; TNothing; TNothing; TNothing;
        TText [97; 120]; TText [99; 100]; TText [97; 98]; TText [97; 120; 32; 99; 100; 33]; TText [97; 120; 32; 99; 100; 33];
        TText [97; 98; 32; 99; 100; 33]]. vm_compute. reflexivity. }
  split; [vm_compute; reflexivity|]. split; [vm_compute; reflexivity|].
  unfold a_program.
  repeat (cbn [all_keep_nuls]; split;
          [first [exact Logic.I
                 | split; [discriminate|]; intros cs E; vm_compute in E; injection E as <-; vm_compute; discriminate]|];
          let x := fresh in let s := fresh in let E := fresh in
          intros x s E; vm_compute in E; injection E as <- <-).
  exact Logic.I.
Qed.
