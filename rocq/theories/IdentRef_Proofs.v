(** References to the items of an identifiable_item_collection. *)
From Coq Require Import List. Import ListNotations.
From Verif Require Import Base BaseFacts Iter_Model Sv_Model Lookup_Model Ident_Model Coll_Spec Sv_Proofs Ident_Proofs IdentRef_Model IdentRef_Spec.
Local Open Scope N_scope.

Section R.
Variable b : build.

(** Dead addresses stay dead; ids outside [S] keep their address. *)
Definition evolves (S : N -> Prop) (c c' : coll) : Prop :=
  c_next c <= c_next c' /\ (forall a, a < c_next c -> lookup a (c_heap c) = None -> lookup a (c_heap c') = None) /\
  (forall id a, ~ S id -> lookup id (c_items c) = Some a -> lookup id (c_items c') = Some a).
Lemma ev_refl S c : evolves S c c.
Proof. split; [lia|]. auto. Qed.
Lemma ev_trans S c1 c2 c3 : evolves S c1 c2 -> evolves S c2 c3 -> evolves S c1 c3.
Proof. intros (A & B & C) (D & E & F). split; [lia|]. split; [|auto]. intros a La H. apply E; [lia|auto]. Qed.
Lemma ev_weak (S T : N -> Prop) c c' : (forall i, S i -> T i) -> evolves S c c' -> evolves T c c'.
Proof. intros W (A & B & C). split; [exact A|]. split; [exact B|]. intros id a N. apply C. auto. Qed.

Definition none (_ : N) : Prop := False.
Lemma ev_new c it : evolves none c (snd (new_item c it)).
Proof.
  split; [cbn; lia|]. split; [|auto]. intros a La H. cbn. destruct (c_next c =? a) eqn:E; [lia|exact H].
Qed.
Lemma ev_free S c a : evolves S c (free_item c a).
Proof.
  split; [cbn; lia|]. split; [|auto]. intros x _ H. cbn. rewrite lookup_remove. now destruct (a =? x).
Qed.
Lemma ev_items c id a : evolves none c (mk_coll (c_items c ++ [(id, a)]) (c_order c) (c_heap c) (c_next c)).
Proof. split; [cbn; lia|]. split; [auto|]. intros i x _ H. cbn. now rewrite lookup_app, H. Qed.
Lemma ev_order S c o : evolves S c (mk_coll (c_items c) o (c_heap c) (c_next c)).
Proof. split; [cbn; lia|]. split; auto. Qed.

Lemma ev_try_unchecked c id a al : evolves none c (snd (ic_try_unchecked_insert b c id a al)).
Proof.
  unfold ic_try_unchecked_insert. destruct (ic_contains c id); [apply ev_free|]. destruct (al_node al); [|apply ev_free].
  destruct (al_push al); [|apply ev_items]. eapply ev_trans; [apply (ev_items c id a)|]. apply (ev_order none (mk_coll (c_items c ++ [(id, a)]) (c_order c) (c_heap c) (c_next c))).
Qed.
Lemma ev_unchecked c id a al : evolves none c (snd (ic_unchecked_insert b c id a al)).
Proof.
  unfold ic_unchecked_insert. destruct (al_node al); [|apply ev_free].
  set (c1 := if ic_contains c id then free_item c a else _).
  assert (E : evolves none c c1) by (unfold c1; destruct (ic_contains c id); [apply ev_free|apply ev_items]).
  destruct (al_push al); [|exact E]. eapply ev_trans; [exact E|]. apply (ev_order none c1).
Qed.
Lemma ev_insert c it al : evolves none c (snd (ic_insert b c it al)).
Proof.
  unfold ic_insert. destruct (ic_contains c (it_id it)); [apply ev_refl|]. destruct (al_item al); [|apply ev_refl].
  cbn [new_item]. eapply ev_trans; [apply (ev_new c it)|]. apply ev_unchecked.
Qed.
Lemma ev_try_insert c it al : evolves none c (snd (ic_try_insert b c it al)).
Proof.
  unfold ic_try_insert. destruct (al_item al); [|apply ev_refl].
  cbn [new_item]. eapply ev_trans; [apply (ev_new c it)|]. apply ev_try_unchecked.
Qed.
Lemma ev_emplace c it al : evolves none c (snd (ic_emplace b c it al)).
Proof.
  unfold ic_emplace. destruct (al_item al); [|apply ev_refl]. cbn [new_item].
  eapply ev_trans; [apply (ev_new c it)|]. pose proof (ev_try_unchecked (snd (new_item c it)) (it_id it) (c_next c) al) as E. cbn [new_item snd] in E |- *.
  destruct (ic_try_unchecked_insert b _ _ _ _) as [r c2]. destruct r as [[|]| | | |]; exact E.
Qed.
Lemma ev_insert_each xs : forall c, evolves none c (snd (ic_insert_each b c xs)).
Proof.
  induction xs as [|[it al] xs IH]; intros c; cbn [ic_insert_each]; [apply ev_refl|].
  pose proof (ev_insert c it al) as E. destruct (ic_insert b c it al) as [[u|e| | |] c1]; cbn [snd] in *; try exact E.
  eapply ev_trans; [exact E|apply IH].
Qed.
Lemma ev_insert_range xs : forall c, evolves none c (snd (ic_insert_range b c xs)).
Proof.
  induction xs as [|[it al] xs IH]; intros c; cbn [ic_insert_range]; [apply ev_refl|].
  pose proof (ev_try_insert c it al) as E. destruct (ic_try_insert b c it al) as [[u|e| | |] c1]; cbn [snd] in *; try exact E.
  eapply ev_trans; [exact E|apply IH].
Qed.
Lemma ev_try_insert_each xs : forall c, evolves none c (snd (ic_try_insert_each b c xs)).
Proof.
  induction xs as [|[it al] xs IH]; intros c; cbn [ic_try_insert_each]; [apply ev_refl|].
  pose proof (ev_try_insert c it al) as E. destruct (ic_try_insert b c it al) as [[u|e| | |] c1]; cbn [snd] in *; try exact E.
  specialize (IH c1). destruct (ic_try_insert_each b c1 xs) as [rs c2]. cbn [snd] in *. eapply ev_trans; [exact E|exact IH].
Qed.
Lemma ev_map_erase c id : evolves (fun i => i = id) c (map_erase c id).
Proof.
  unfold map_erase. destruct (lookup id (c_items c)) as [a|] eqn:E; [|apply ev_refl].
  split; [cbn; lia|]. split; cbn.
  - intros x _ H. rewrite lookup_remove. now destruct (a =? x).
  - intros i x N H. rewrite lookup_remove. destruct (id =? i) eqn:Ei; [|exact H]. apply N.eqb_eq in Ei. congruence.
Qed.
Lemma ev_erase c id : evolves (fun i => i = id) c (snd (ic_erase c id)).
Proof.
  unfold ic_erase. destruct (find_by_id c id (c_order c)) as [[[p q]|]|e| | |]; cbn [snd]; try apply ev_refl.
  eapply ev_trans; [|apply ev_map_erase]. apply ev_order.
Qed.
Lemma ev_erase_each ids : forall c, evolves (fun i => In i ids) c (snd (ic_erase_each c ids)).
Proof.
  induction ids as [|id ids IH]; intros c; cbn [ic_erase_each]; [apply ev_refl|].
  assert (E : evolves (fun i => In i (id :: ids)) c (snd (ic_erase c id))) by (eapply ev_weak; [|apply ev_erase]; cbn; intros; now left).
  destruct (ic_erase c id) as [[u|e| | |] c1]; cbn [snd] in *; try exact E.
  specialize (IH c1). destruct (ic_erase_each c1 ids) as [rs c2]. cbn [snd] in *. eapply ev_trans; [exact E|].
  eapply ev_weak; [|exact IH]. cbn. auto.
Qed.
Lemma ev_excise c id : evolves (fun i => i = id) c (snd (ic_excise b c id)).
Proof.
  unfold ic_excise. destruct (lookup id (c_items c)) as [a|] eqn:E; [|apply ev_refl]. cbn [c_order].
  assert (K : forall i x, i <> id -> lookup i (c_items c) = Some x -> lookup i (remove_key id (c_items c)) = Some x).
  { intros i x N H. rewrite lookup_remove. destruct (id =? i) eqn:Ei; [|exact H]. apply N.eqb_eq in Ei. congruence. }
  destruct (find_ptr a (c_order c)) as [[p q]|]; cbn [snd]; (split; [cbn; lia|]); split; cbn; auto.
  intros x _ H. rewrite lookup_remove. now destruct (a =? x).
Qed.
Lemma lookup_filter_none A (f : N * A -> bool) a (h : list (N * A)) : lookup a h = None -> lookup a (filter f h) = None.
Proof.
  induction h as [|[k x] h IH]; cbn; [auto|]. destruct (k =? a) eqn:E; [discriminate|]. intros H. destruct (f (k, x)); cbn; [rewrite E|]; auto.
Qed.
Lemma ev_clear c : evolves (fun _ => True) c (ic_clear c).
Proof.
  split; [cbn; lia|]. split; cbn.
  - intros a _ H. now apply lookup_filter_none.
  - intros id a N. now destruct N.
Qed.
Lemma ev_assign c a it : evolves none c (snd (ic_assign_through c a it)).
Proof.
  unfold ic_assign_through. destruct (lookup a (c_heap c)) eqn:E; [|apply ev_refl]. split; [cbn; lia|]. split; cbn; [|auto].
  intros x _ H. rewrite lookup_replace. destruct (a =? x) eqn:Ex; [|exact H]. apply N.eqb_eq in Ex. congruence.
Qed.

Lemma ev_step o c : evolves (fun id => removes id o) c (snd (ic_step b o c)).
Proof.
  destruct o; cbn [ic_step removes]; try apply ev_refl.
  - pose proof (ev_insert c it al) as E. destruct (ic_insert b c it al). exact E.
  - pose proof (ev_try_insert c it al) as E. destruct (ic_try_insert b c it al). exact E.
  - pose proof (ev_insert_range l c) as E. destruct (ic_insert_range b c l). exact E.
  - pose proof (ev_insert_each l c) as E. destruct (ic_insert_each b c l). exact E.
  - pose proof (ev_try_insert_each l c) as E. destruct (ic_try_insert_each b c l). exact E.
  - pose proof (ev_erase c id) as E. destruct (ic_erase c id). cbn [snd] in *. eapply ev_weak; [|exact E]. cbn. auto.
  - pose proof (ev_erase_each ids c) as E. destruct (ic_erase_each c ids). exact E.
  - pose proof (ev_emplace c it al) as E. destruct (ic_emplace b c it al). exact E.
  - destruct (lookup id (c_items c)) as [a|]; [|apply ev_refl]. pose proof (ev_assign c a it) as E. destruct (ic_assign_through c a it). exact E.
  - pose proof (ev_excise c id) as E. destruct (ic_excise b c id). cbn [snd] in *. eapply ev_weak; [|exact E]. cbn. auto.
  - apply ev_clear.
Qed.
Lemma ev_run ops : forall c, evolves (fun id => Exists (removes id) ops) c (snd (ic_run b ops c)).
Proof.
  induction ops as [|o ops IH]; intros c; cbn [ic_run]; [apply ev_refl|].
  pose proof (ev_step o c) as E. destruct (ic_step b o c) as [x c1]. specialize (IH c1). destruct (ic_run b ops c1) as [xs c2]. cbn [snd] in *.
  eapply ev_trans; eapply ev_weak; [|exact E| |exact IH]; cbn; intros i Hi; [now left|now right].
Qed.

(** What is removed is dead. *)
Lemma held c l id a : RI c l -> lookup id (c_items c) = Some a -> a < c_next c /\ has_id id l = true /\ In a (c_order c).
Proof.
  intros H L. assert (Hi : has_id id l = true).
  { rewrite <- (contains_spec _ _ id H). unfold ic_contains. now rewrite L. }
  split; [|split; [exact Hi|]]; [apply (ri_next _ _ H)|];
    (pose proof (ri_items _ _ H) as E; rewrite E in L; clear E; pose proof (ri_len _ _ H) as LL; clear H Hi;
     revert l L LL; induction (c_order c) as [|x o IH]; intros [|it l] L LL; try discriminate; cbn in *;
     destruct (it_id it =? id); [injection L as ->; now left|right; apply (IH l); [exact L|lia]]).
Qed.
Lemma erase_dead c l id a : RI c l -> lookup id (c_items c) = Some a -> lookup a (c_heap (snd (ic_erase c id))) = None.
Proof.
  intros H L. destruct (held _ _ _ _ H L) as (_ & Hi & _). destruct (erase_ok c l id H) as (c' & E & _). rewrite Hi in E.
  unfold ic_erase in *. destruct (find_by_id c id (c_order c)) as [[[p q]|]|e| | |]; try discriminate E. cbn [snd].
  unfold map_erase. cbn [c_items]. rewrite L. cbn. rewrite lookup_remove, N.eqb_refl. reflexivity.
Qed.
Lemma excise_dead c l id a : RI c l -> lookup id (c_items c) = Some a -> lookup a (c_heap (snd (ic_excise b c id))) = None.
Proof.
  intros H L. destruct (excise_ok b c l id H) as (c' & E & _). destruct (held _ _ _ _ H L) as (_ & Hi & Io).
  unfold ic_excise in *. rewrite L in *. cbn [c_order] in *. apply in_split in Io as (o1 & o2 & Eo). pose proof (ri_addr _ _ H) as ND. rewrite Eo in ND, E |- *.
  rewrite find_ptr_app by (apply NoDup_remove_2 in ND; intros K; apply ND, in_or_app; now left). cbn.
  rewrite lookup_remove, N.eqb_refl. reflexivity.
Qed.
Lemma clear_dead c l id a : RI c l -> lookup id (c_items c) = Some a -> lookup a (c_heap (ic_clear c)) = None.
Proof.
  intros H L. cbn. assert (K : existsb (fun y => snd y =? a) (c_items c) = true).
  { clear H. induction (c_items c) as [|[k x] m IH]; [discriminate|]. cbn in *. destruct (k =? id); [injection L as ->; now rewrite N.eqb_refl|].
    rewrite IH by assumption. apply Bool.orb_true_r. }
  induction (c_heap c) as [|[k x] h IH]; [reflexivity|]. cbn [filter fst]. destruct (k =? a) eqn:Ek.
  - apply N.eqb_eq in Ek. subst k. rewrite K. exact IH.
  - destruct (negb _); cbn; [rewrite Ek|]; exact IH.
Qed.
Lemma erase_each_dead ids : forall c l id a, RI c l -> In id ids -> lookup id (c_items c) = Some a -> lookup a (c_heap (snd (ic_erase_each c ids))) = None.
Proof.
  induction ids as [|i ids IH]; intros c l id a H I L; [destruct I|]. cbn [ic_erase_each].
  destruct (erase_ok c l i H) as (c1 & E & H1). pose proof (ev_erase c i) as V. pose proof (erase_dead c l i) as D. rewrite E in *. cbn [snd] in *.
  pose proof (ev_erase_each ids c1) as W. specialize (IH c1 _ id a H1). destruct (ic_erase_each c1 ids) as [rs c2]. cbn [snd] in *.
  destruct (N.eq_dec i id) as [->|NE].
  - apply W; [|now apply D]. destruct (held _ _ _ _ H L) as (La & _). destruct V as (Vn & _). lia.
  - apply IH; [destruct I; [contradiction|assumption]|]. apply V; [congruence|exact L].
Qed.
Lemma step_dead o c l id a : RI c l -> removes id o -> lookup id (c_items c) = Some a -> lookup a (c_heap (snd (ic_step b o c))) = None.
Proof.
  intros H R L. destruct o; cbn [removes] in R; try contradiction; cbn [ic_step].
  - subst. pose proof (erase_dead _ _ _ _ H L) as D. now destruct (ic_erase c id).
  - pose proof (erase_each_dead ids _ _ _ _ H R L) as D. now destruct (ic_erase_each c ids).
  - subst. pose proof (excise_dead _ _ _ _ H L) as D. now destruct (ic_excise b c id).
  - exact (clear_dead _ _ _ _ H L).
Qed.

Lemma ref_id c id a : ic_ref_id c id = Ok a <-> lookup id (c_items c) = Some a.
Proof. unfold ic_ref_id. destruct (lookup id (c_items c)); split; congruence. Qed.

Lemma refs_live ops xs l c : spec_run ops [] = Some (xs, l) -> ic_run b ops ic_empty_coll = (xs, c) ->
  forall id a, ic_ref_id c id = Ok a -> forall more ys l' c', spec_run more l = Some (ys, l') -> ic_run b more c = (ys, c') ->
  (Forall (fun o => ~ removes id o) more -> ic_ref_id c' id = Ok a /\ read_ref c' a = found (item_with id l') /\ has_id id l' = true) /\
  (Exists (removes id) more -> lookup a (c_heap c') = None).
Proof.
  intros S E id a R more ys l' c' S' E'. destruct (ic_run_ok b ops _ _ _ _ RI_empty S) as (c0 & E0 & H). rewrite E in E0. injection E0 as <-.
  apply ref_id in R. split.
  - intros F. destruct (ic_run_ok b more _ _ _ _ H S') as (c0 & E0 & H'). rewrite E' in E0. injection E0 as <-.
    pose proof (ev_run more c) as V. rewrite E' in V. cbn [snd] in V. destruct V as (_ & _ & V).
    assert (L : lookup id (c_items c') = Some a).
    { apply V; [|exact R]. intros X. rewrite Exists_exists in X. destruct X as (o & Io & Ro). rewrite Forall_forall in F. exact (F o Io Ro). }
    split; [now apply ref_id|]. split; [|now apply (held c' l' id a)].
    rewrite <- (at_id_ok _ _ id H'). unfold ic_at_id, read_ref. now rewrite L.
  - clear S E ops xs. revert c l ys l' S' E' H R. induction more as [|o more IH]; intros c l ys l' S' E' H R X; [inversion X|].
    cbn [spec_run ic_run] in *. destruct (spec_step o l) as [[x l1]|] eqn:E1; [|discriminate].
    destruct (spec_run more l1) as [[ys' l2]|] eqn:E2; [|discriminate]. injection S' as <- <-.
    destruct (ic_step_ok b _ _ _ _ _ H E1) as (c1 & Es & H1). pose proof (ev_step o c) as V. pose proof (step_dead o c l id a H) as D.
    rewrite Es in *. cbn [snd] in *. destruct (ic_run b more c1) as [zs c2] eqn:Er. injection E' as -> <-.
    pose proof (ev_run more c1) as W. rewrite Er in W. cbn [snd] in W.
    destruct (held _ _ _ _ H R) as (La & _).
    assert (Hd : removes id o \/ ~ removes id o).
    { destruct o; cbn [removes]; auto; try (destruct (N.eq_dec id0 id); [left|right]; assumption).
      destruct (in_dec N.eq_dec id ids); [left|right]; assumption. }
    destruct Hd as [Hr|Hn].
    + rewrite (proj1 (proj2 W)); [reflexivity| |now apply D]. destruct V as (Vn & _). lia.
    + apply (IH c1 l1 ys' l2); auto; [apply V; auto|]. inversion X; subst; [contradiction|assumption].
Qed.

Lemma refs_lifetime ops xs l c : spec_run ops [] = Some (xs, l) -> ic_run b ops ic_empty_coll = (xs, c) ->
  forall id a, ic_ref_id c id = Ok a -> forall more ys l' c', spec_run more l = Some (ys, l') -> ic_run b more c = (ys, c') ->
  (Forall (fun o => ~ removes id o) more -> ic_ref_id c' id = Ok a /\ read_ref c' a = found (item_with id l') /\ has_id id l' = true) /\
  (destroyed_in id more -> read_ref c' a = UB /\ forall it, fst (ic_assign_through c' a it) = UB).
Proof.
  intros S E id a R more ys l' c' S' E'. destruct (refs_live ops xs l c S E id a R more ys l' c' S' E') as (A & B). split; [exact A|].
  intros (p & o & q & -> & _ & [X _]). unfold read_ref, deref, ic_assign_through. rewrite B; [auto|]. apply Exists_app. right. now left.
Qed.
Lemma excise_hands_over ops xs l c : spec_run ops [] = Some (xs, l) -> ic_run b ops ic_empty_coll = (xs, c) ->
  forall id a, ic_ref_id c id = Ok a -> exists it c', read_ref c a = Ok it /\ ic_excise b c id = (Ok (Some it), c') /\ ic_contains c' id = false.
Proof.
  intros S E id a R. destruct (ic_run_ok b ops _ _ _ _ RI_empty S) as (c0 & E0 & H). rewrite E in E0. injection E0 as <-.
  apply ref_id in R. destruct (excise_ok b c l id H) as (c' & -> & H'). pose proof (at_id_ok _ _ id H) as A. unfold ic_at_id in A. rewrite R in A.
  destruct (held _ _ _ _ H R) as (_ & Hh & _). destruct (item_with id l) as [it|] eqn:Ew.
  - exists it, c'. split; [exact A|]. split; [reflexivity|]. rewrite (contains_spec _ _ _ H'). apply has_id_false. unfold without.
    intros I. apply List.in_map_iff in I as (y & Hy & Iy). apply filter_In in Iy as [_ Iy]. apply Bool.negb_true_iff in Iy. lia.
  - exfalso. unfold item_with in Ew. apply has_id_In, List.in_map_iff in Hh as (y & Hy & Iy). apply (find_none _ _ Ew) in Iy. lia.
Qed.

Lemma nth_combine (l : list item) (o : list N) : NoDup (map it_id l) -> length o = length l -> forall i it, nth_error l i = Some it ->
  exists a, nth_error o i = Some a /\ lookup (it_id it) (combine (map it_id l) o) = Some a.
Proof.
  revert o. induction l as [|x l IH]; intros [|a o] ND L [|i] it H; try discriminate; cbn in *.
  - injection H as ->. exists a. now rewrite N.eqb_refl.
  - inversion ND; subst. destruct (IH o ltac:(assumption) ltac:(lia) i it H) as (a' & Ha & La). exists a'. split; [exact Ha|].
    destruct (it_id x =? it_id it) eqn:E; [|exact La]. apply N.eqb_eq in E. exfalso. apply nth_error_In in H. apply H2. rewrite E. now apply in_map.
Qed.
Lemma refs_agree ops xs l c : spec_run ops [] = Some (xs, l) -> ic_run b ops ic_empty_coll = (xs, c) ->
  (forall i it, nth_error l (N.to_nat i) = Some it -> exists a, ic_ref_index c i = Ok a /\ ic_ref_id c (it_id it) = Ok a /\ read_ref c a = Ok it) /\
  (forall i j a, ic_ref_id c i = Ok a -> ic_ref_id c j = Ok a -> i = j) /\
  (forall id, has_id id l = false -> ic_ref_id c id = Throw out_of_range) /\
  (forall i, lenN l <= i -> ic_ref_index c i = Throw out_of_range).
Proof.
  intros S E. destruct (ic_run_ok b ops _ _ _ _ RI_empty S) as (c0 & E0 & H). rewrite E in E0. injection E0 as <-.
  assert (Miss : (forall id, has_id id l = false -> ic_ref_id c id = Throw out_of_range) /\ forall i, lenN l <= i -> ic_ref_index c i = Throw out_of_range).
  { split.
    - intros id Hi. rewrite <- (contains_spec _ _ id H) in Hi. unfold ic_contains in Hi. unfold ic_ref_id. destruct (lookup id (c_items c)); [discriminate|reflexivity].
    - intros i Hi. unfold ic_ref_index. rewrite (proj2 (size_spec _ _ H)), (proj2 (N.leb_le _ _) Hi). reflexivity. }
  split; [|split; [|exact Miss]]; clear Miss.
  - intros i it Hn. destruct (nth_combine l (c_order c) (ri_ids _ _ H) (ri_len _ _ H) _ _ Hn) as (a & Ha & La). rewrite <- (ri_items _ _ H) in La.
    exists a. split; [|split; [now apply ref_id|]].
    + unfold ic_ref_index. rewrite Ha. rewrite (proj2 (N.leb_gt _ _)); [reflexivity|].
      assert (N.to_nat i < length (c_order c))%nat by (apply nth_error_Some; congruence). unfold lenN. lia.
    + pose proof (at_index_ok _ _ i H) as A. rewrite Hn in A. unfold ic_at_index in A. rewrite Ha in A. destruct (lenN (c_order c) <=? i); [discriminate|exact A].
  - intros i j a Hi Hj. apply ref_id in Hi, Hj.
    assert (K : forall k, lookup k (c_items c) = Some a -> exists it, item_with k l = Some it /\ it_id it = k /\ deref c a = Ok it).
    { intros k Hk. pose proof (at_id_ok _ _ k H) as A. unfold ic_at_id in A. rewrite Hk in A. destruct (item_with k l) as [it|] eqn:Ew.
      - exists it. split; [reflexivity|]. apply find_some in Ew as [_ Ew]. split; [lia|exact A].
      - exfalso. destruct (held _ _ _ _ H Hk) as (_ & Hh & _). unfold item_with in Ew. apply has_id_In, List.in_map_iff in Hh as (y & Hy & Iy).
        apply (find_none _ _ Ew) in Iy. lia. }
    destruct (K i Hi) as (x & _ & Ex & Dx). destruct (K j Hj) as (y & _ & Ey & Dy). congruence.
Qed.

Lemma emplace_ref ops xs l c it al a c' : spec_run ops [] = Some (xs, l) -> ic_run b ops ic_empty_coll = (xs, c) -> al_push al = true ->
  ic_emplace b c it al = (Ok a, c') -> ic_ref_id c' (it_id it) = Ok a /\ read_ref c' a = Ok it /\ ic_contains c (it_id it) = false.
Proof.
  intros S E P X. destruct (ic_run_ok b ops _ _ _ _ RI_empty S) as (c0 & E0 & H). rewrite E in E0. injection E0 as <-.
  destruct (al_item al) eqn:Ai; [|unfold ic_emplace in X; rewrite Ai in X; discriminate].
  unfold ic_emplace in X. rewrite Ai in X. cbn [new_item] in X. unfold ic_try_unchecked_insert in X.
  rewrite P in X. change (ic_contains (mk_coll (c_items c) (c_order c) ((c_next c, it) :: c_heap c) (c_next c + 1)) (it_id it)) with (ic_contains c (it_id it)) in X.
  destruct (ic_contains c (it_id it)) eqn:Ec.
  { destruct (dassert b _) as [[]| | | |]; discriminate X. }
  destruct (al_node al); [|discriminate]. destruct (dassert b _) as [[]| | | |]; cbn in X; try discriminate. injection X as <- <-.
  unfold ic_contains in Ec. destruct (lookup (it_id it) (c_items c)) eqn:El; [discriminate|].
  unfold ic_ref_id, read_ref, deref. cbn. rewrite lookup_app, El. cbn. rewrite !N.eqb_refl. auto.
Qed.
End R.
