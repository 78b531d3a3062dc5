From Coq Require Import List Lia. Import ListNotations.
From Verif Require Import Base Iter_Model Ident_Model IdentMove_Model Coll_Spec IdentMove_Spec Ident_Proofs.
Local Open Scope N_scope.

Section P.
Variable b : build.

Definition held (c : coll) (x : option (list item)) : Prop :=
  match x with Some l => RI c l | None => c_heap (ic_clear c) = [] end.
Definition holds (s : cstore) (p : names) : Prop := (forall v, held (cs_var s v) (p v)) /\ cs_lost s = [].

Lemma set_holds f (p : names) v c x : (forall w, held (f w) (p w)) -> held c x -> forall w, held (cs_set f v c w) (name_is p v x w).
Proof. intros H Hc w. unfold cs_set, name_is. destruct (w =? v); [exact Hc|apply H]. Qed.

Lemma no_heap_lookup (h : list (N * item)) : (forall a, lookup a h = None) -> h = [].
Proof.
  destruct h as [|[a it] h]; [reflexivity|]. intros H. specialize (H a). cbn in H. now rewrite N.eqb_refl in H.
Qed.

Lemma destroyed_all c l : RI c l -> c_heap (ic_clear c) = [].
Proof.
  intros H. pose proof (clear_ok _ _ H) as R. pose proof (ri_heap _ _ R) as E. pose proof (ri_len _ _ R) as L.
  apply no_heap_lookup. intros a. rewrite E. destruct (c_order (ic_clear c)); [reflexivity|discriminate].
Qed.

Lemma held_destroyed c x : held c x -> c_heap (ic_clear c) = [].
Proof. destruct x as [l|]; [apply destroyed_all|exact (fun H => H)]. Qed.

Lemma held_clear c x : held c x -> RI (ic_clear c) [].
Proof.
  intros H. apply held_destroyed in H. split; cbn [ic_clear c_items c_order c_next]; auto; try constructor; try contradiction.
  intros a. now rewrite H.
Qed.

Lemma held_from l : held (moved_from l) (after_move l).
Proof. destruct l as [[|] [|]]; cbn; try reflexivity. apply RI_empty. Qed.

Lemma filter_none {A} (f g : A -> bool) l : (forall x, f x = true -> g x = false) -> filter g (filter f l) = [].
Proof.
  intros H. induction l as [|x l IH]; [reflexivity|]. cbn. destruct (f x) eqn:E; [|exact IH]. cbn. now rewrite (H x E).
Qed.

Lemma held_leaves l c : held (moved_to_itself (Leaves l) c) None.
Proof. cbn. apply filter_none. intros x ->. reflexivity. Qed.

Lemma mstep_ok o s p x p' : holds s p -> names_step o p = Some (x, p') ->
  exists s', mstep b o s = (x, s') /\ holds s' p'.
Proof.
  intros [H L] E. destruct o as [v o|v w l|v h|v]; cbn [names_step mstep] in *.
  - pose proof (H v) as Hv. destruct (p v) as [l|].
    + destruct (spec_step o l) as [[y l']|] eqn:E1; [|discriminate]. injection E as <- <-.
      destruct (ic_step_ok b _ _ _ _ _ Hv E1) as (c & -> & G). eexists. split; [reflexivity|].
      split; [now apply set_holds|exact L].
    + destruct o; try discriminate. injection E as <- <-. eexists. split; [reflexivity|].
      split; [|exact L]. apply set_holds; [exact H|]. exact (held_clear _ None Hv).
  - destruct (v =? w) eqn:D; [discriminate|]. injection E as <- <-. eexists. split; [reflexivity|].
    split; cbn [cs_var cs_lost]; [|now rewrite L, (held_destroyed _ _ (H v))].
    apply set_holds; [apply set_holds; [exact H|apply H]|apply held_from].
  - injection E as <- <-. eexists. split; [reflexivity|]. destruct h as [| |l]; split; cbn [cs_var cs_lost].
    + intros u. unfold cs_set, moved_to_itself. destruct (u =? v) eqn:D; [apply N.eqb_eq in D; subst u|]; apply H.
    + now rewrite L.
    + apply set_holds; [exact H|apply RI_empty].
    + now rewrite L, (held_destroyed _ _ (H v)).
    + apply set_holds; [exact H|apply held_leaves].
    + now rewrite L, (held_destroyed _ _ (H v)).
  - injection E as <- <-. eexists. split; [reflexivity|].
    split; cbn [cs_var cs_lost]; [|now rewrite L, (held_destroyed _ _ (H v))].
    apply set_holds; [exact H|apply RI_empty].
Qed.

Lemma mrun_ok ops : forall s p xs p', holds s p -> names_run ops p = Some (xs, p') ->
  exists s', mrun b ops s = (xs, s') /\ holds s' p'.
Proof.
  induction ops as [|o ops IH]; intros s p xs p' H E; cbn [names_run mrun] in *.
  - injection E as <- <-. eauto.
  - destruct (names_step o p) as [[x p1]|] eqn:E1; [|discriminate].
    destruct (names_run ops p1) as [[ys p2]|] eqn:E2; [|discriminate]. injection E as <- <-.
    destruct (mstep_ok _ _ _ _ _ H E1) as (s1 & -> & H1). destruct (IH _ _ _ _ H1 E2) as (s2 & -> & H2). eauto.
Qed.

Lemma start_holds : holds cs_start all_empty.
Proof. split; [intros; apply RI_empty|reflexivity]. Qed.

Lemma held_looks c l : RI c l ->
  ic_iterate b c = Ok l /\ ic_size c = lenN l /\ (forall id, ic_at_id c id = found (item_with id l)) /\
  (forall i, ic_at_index c i = found (nth_error l (N.to_nat i))).
Proof.
  intros H. split; [now apply iterate_ok|]. split; [now apply size_spec|]. split; intros; [now apply at_id_ok|now apply at_index_ok].
Qed.

Lemma moves_refine ops xs p : names_run ops all_empty = Some (xs, p) ->
  exists s, mrun b ops cs_start = (xs, s) /\ cs_lost s = [] /\
    (forall v l, p v = Some l -> ic_iterate b (cs_var s v) = Ok l /\ ic_size (cs_var s v) = lenN l /\
      (forall id, ic_at_id (cs_var s v) id = found (item_with id l)) /\
      (forall i, ic_at_index (cs_var s v) i = found (nth_error l (N.to_nat i)))) .
Proof.
  intros E. destruct (mrun_ok _ _ _ _ _ start_holds E) as (s & Hs & [H L]). exists s. split; [exact Hs|].
  split; [exact L|]. intros v l Hv. apply held_looks. specialize (H v). now rewrite Hv in H.
Qed.

Lemma move_transfers ops xs p v w l m : names_run ops all_empty = Some (xs, p) -> v <> w -> p w = Some m ->
  exists s s' s'', mrun b ops cs_start = (xs, s) /\ mstep b (MMove v w l) s = (None, s') /\
    mstep b (MCall w IClear) s' = (Some (ROk (Ok tt)), s'') /\ cs_lost s' = [] /\ cs_lost s'' = [] /\
    ic_iterate b (cs_var s' v) = ic_iterate b (cs_var s w) /\
    (forall id, ic_at_id (cs_var s' v) id = ic_at_id (cs_var s w) id) /\
    (forall i, ic_at_index (cs_var s' v) i = ic_at_index (cs_var s w) i) /\
    (l = left_empty -> ic_iterate b (cs_var s' w) = Ok [] /\ ic_size (cs_var s' w) = 0) /\
    ic_iterate b (cs_var s'' w) = Ok [] /\ ic_size (cs_var s'' w) = 0 /\
    (forall u, u <> v -> u <> w -> cs_var s' u = cs_var s u) /\
    (forall u, u <> w -> cs_var s'' u = cs_var s' u).
Proof.
  intros E D M. destruct (mrun_ok _ _ _ _ _ start_holds E) as (s & Hs & H).
  assert (E1 : names_step (MMove v w l) p = Some (None, name_is (name_is p v (p w)) w (after_move l))).
  { cbn. now rewrite (proj2 (N.eqb_neq _ _) D). }
  destruct (mstep_ok _ _ _ _ _ H E1) as (s' & Hs' & H').
  assert (E2 : names_step (MCall w IClear) (name_is (name_is p v (p w)) w (after_move l)) =
                 Some (Some (ROk (Ok tt)), name_is (name_is (name_is p v (p w)) w (after_move l)) w (Some []))).
  { cbn [names_step]. destruct (name_is _ w _ w); reflexivity. }
  destruct (mstep_ok _ _ _ _ _ H' E2) as (s'' & Hs'' & [H'' L'']). destruct H' as [H' L'].
  exists s, s', s''. repeat (split; [eassumption|]).
  pose proof (H' v) as Hv. pose proof (H' w) as Hw. pose proof (H'' w) as Hw2. unfold name_is in Hv, Hw, Hw2.
  rewrite N.eqb_refl in Hv, Hw, Hw2. rewrite (proj2 (N.eqb_neq _ _) D) in Hv. destruct H as [H _].
  pose proof (H w) as H0. rewrite M in Hv, H0.
  split; [now rewrite (proj1 (iterate_ok b _ _ Hv)), (proj1 (iterate_ok b _ _ H0))|].
  split; [intros id; now rewrite (at_id_ok _ _ _ Hv), (at_id_ok _ _ _ H0)|].
  split; [intros i; now rewrite (at_index_ok _ _ _ Hv), (at_index_ok _ _ _ H0)|].
  split; [intros ->; cbn in Hw; split; [now rewrite (proj1 (iterate_ok b _ _ Hw))|now rewrite (proj1 (size_spec _ _ Hw))]|].
  cbn in Hw2. split; [now rewrite (proj1 (iterate_ok b _ _ Hw2))|]. split; [now rewrite (proj1 (size_spec _ _ Hw2))|].
  split.
  - intros u A B. cbn [mstep] in Hs'. unfold ic_move in Hs'. injection Hs' as <-. cbn [cs_var]. unfold cs_set.
    now rewrite (proj2 (N.eqb_neq _ _) A), (proj2 (N.eqb_neq _ _) B).
  - intros u A. cbn [mstep ic_step] in Hs''. injection Hs'' as <-. cbn [cs_var]. unfold cs_set.
    now rewrite (proj2 (N.eqb_neq _ _) A).
Qed.

Lemma self_keeps_or_loses ops xs p v h m : names_run ops all_empty = Some (xs, p) -> p v = Some m ->
  exists s s' s'', mrun b ops cs_start = (xs, s) /\ mstep b (MSelf v h) s = (None, s') /\
    mstep b (MCall v IClear) s' = (Some (ROk (Ok tt)), s'') /\ cs_lost s' = [] /\ cs_lost s'' = [] /\
    match h with
    | Keeps => ic_iterate b (cs_var s' v) = Ok m
    | Empties => ic_iterate b (cs_var s' v) = Ok []
    | Leaves _ => True
    end /\
    ic_iterate b (cs_var s'' v) = Ok [] /\ ic_size (cs_var s'' v) = 0 /\
    (forall u, u <> v -> cs_var s' u = cs_var s u /\ cs_var s'' u = cs_var s u).
Proof.
  intros E M. destruct (mrun_ok _ _ _ _ _ start_holds E) as (s & Hs & H).
  destruct (mstep_ok (MSelf v h) _ _ _ _ H eq_refl) as (s' & Hs' & H').
  match type of H' with holds _ ?q => assert (E2 : names_step (MCall v IClear) q = Some (Some (ROk (Ok tt)), name_is q v (Some []))) end.
  { cbn [names_step]. match goal with |- match ?x with _ => _ end = _ => destruct x end; reflexivity. }
  destruct (mstep_ok _ _ _ _ _ H' E2) as (s'' & Hs'' & [H'' L'']). destruct H' as [H' L'].
  exists s, s', s''. repeat (split; [eassumption|]).
  pose proof (H' v) as Hv. pose proof (H'' v) as Hw. unfold name_is at 1 in Hw. rewrite N.eqb_refl in Hw.
  split.
  { destruct h; [rewrite M in Hv|unfold name_is in Hv; rewrite N.eqb_refl in Hv|exact I]; now apply iterate_ok. }
  cbn in Hw. split; [now rewrite (proj1 (iterate_ok b _ _ Hw))|]. split; [now rewrite (proj1 (size_spec _ _ Hw))|].
  intros u A. cbn [mstep ic_step] in Hs', Hs''. injection Hs' as <-. injection Hs'' as <-. cbn [cs_var]. unfold cs_set.
  now rewrite (proj2 (N.eqb_neq _ _) A).
Qed.
End P.

Lemma moved_from_unusable b : exists l it al xs s, 
  names_run [MCall 0 (IInsert it al); MMove 1 0 l] all_empty <> None /\
  mrun b [MCall 0 (IInsert it al); MMove 1 0 l; MCall 0 IIter] cs_start = (xs, s) /\ In (Some (RItems UB)) xs.
Proof.
  exists (mk_left [] [0]), (mk_item 1 2), all_ok. eexists _, _. split; [discriminate|].
  split; [destruct b; vm_compute; reflexivity|]. destruct b; cbn; auto.
Qed.
