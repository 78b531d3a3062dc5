(** identifiable_item_collection refines a list of items with distinct ids. *)
From Coq Require Import List. Import ListNotations.
From Verif Require Import Base BaseFacts Iter_Model Sv_Model Lookup_Model Ident_Model Coll_Spec Sv_Proofs.

Section IC.
Variable b : build.

(** The representation. *)
Record RI (c : coll) (l : list item) : Prop := mk_RI {
  ri_items : c_items c = combine (map it_id l) (c_order c);
  ri_len : length (c_order c) = length l;
  ri_ids : NoDup (map it_id l);
  ri_addr : NoDup (c_order c);
  ri_next : forall a, In a (c_order c) -> a < c_next c;
  ri_heap : forall a, lookup a (c_heap c) = lookup a (combine (c_order c) l) }.

Lemma lookup_app : forall A k (l m : list (N * A)), lookup k (l ++ m) = match lookup k l with Some x => Some x | None => lookup k m end.
Proof. induction l as [|[k' x] l IH]; intros m; cbn; auto. destruct (k' =? k); auto. Qed.
Lemma lookup_remove : forall A k k' (l : list (N * A)), lookup k (remove_key k' l) = if k' =? k then None else lookup k l.
Proof.
  induction l as [|[k2 x] l IH]; cbn; [destruct (k' =? k); auto|]. destruct (k2 =? k') eqn:E.
  - rewrite IH. apply N.eqb_eq in E. subst. destruct (k' =? k); auto.
  - cbn. rewrite IH. destruct (k2 =? k) eqn:E2; auto. apply N.eqb_eq in E2. subst k2. destruct (k' =? k) eqn:E3; auto. lia.
Qed.
Lemma lookup_replace : forall A k k' (y : A) l, lookup k (replace_key k' y l) =
  if k' =? k then match lookup k' l with Some _ => Some y | None => None end else lookup k l.
Proof.
  induction l as [|[k2 x] l IH]; cbn; [destruct (k' =? k); auto|]. destruct (k2 =? k') eqn:E; cbn.
  - apply N.eqb_eq in E. subst k2. destruct (k' =? k); auto.
  - destruct (k2 =? k) eqn:E2; [|exact IH]. destruct (k' =? k) eqn:E3; auto. lia.
Qed.
Lemma remove_none : forall A k (l : list (N * A)), lookup k l = None -> remove_key k l = l.
Proof. induction l as [|[k2 x] l IH]; cbn; auto. destruct (k2 =? k); [discriminate|]. intros H. now rewrite IH. Qed.
Lemma remove_app : forall A k (l m : list (N * A)), remove_key k (l ++ m) = remove_key k l ++ remove_key k m.
Proof. induction l as [|[k2 x] l IH]; cbn; auto. intros m. destruct (k2 =? k); cbn; now rewrite IH. Qed.
Lemma lookup_none : forall A k (l : list (N * A)), ~ In k (map fst l) -> lookup k l = None.
Proof.
  induction l as [|[k2 x] l IH]; cbn; auto. intros H. destruct (k2 =? k) eqn:E; [|apply IH; tauto]. exfalso. apply H. left. lia.
Qed.
Lemma combine_fst : forall (A B : Type) (l : list A) (m : list B), length l = length m -> map fst (combine l m) = l.
Proof. induction l; intros [|y m] H; try discriminate; cbn; auto. f_equal. apply IHl. cbn in H. lia. Qed.
Lemma combine_snd : forall (A B : Type) (l : list A) (m : list B), length l = length m -> map snd (combine l m) = m.
Proof. induction l; intros [|y m] H; try discriminate; cbn; auto. f_equal. apply IHl. cbn in H. lia. Qed.
Lemma combine_app : forall (A B : Type) (l l' : list A) (m m' : list B), length l = length m ->
  combine (l ++ l') (m ++ m') = combine l m ++ combine l' m'.
Proof. induction l; intros l' [|y m] m' H; try discriminate; cbn; auto. f_equal. apply IHl. cbn in H. lia. Qed.

Lemma has_id_In : forall id l, has_id id l = true <-> In id (map it_id l).
Proof.
  intros. unfold has_id. rewrite existsb_exists, in_map_iff. split; intros (x & H1 & H2); exists x; split; auto; lia.
Qed.
Lemma has_id_false : forall id l, has_id id l = false <-> ~ In id (map it_id l).
Proof. intros. rewrite <- has_id_In. destruct (has_id id l); split; intros; try discriminate; auto. now destruct H. Qed.

(** Splitting the list at an id *)
Lemma split_at : forall id l, has_id id l = true -> exists l1 it l2, l = l1 ++ it :: l2 /\ it_id it = id /\ has_id id l1 = false.
Proof.
  induction l as [|x l IH]; cbn; [discriminate|]. intros H. destruct (it_id x =? id) eqn:E.
  - exists [], x, l. repeat split; auto. lia.
  - destruct (IH H) as (l1 & it & l2 & -> & H1 & H2). exists (x :: l1), it, l2. repeat split; auto. cbn. now rewrite E.
Qed.
Lemma has_app : forall id l m, has_id id (l ++ m) = has_id id l || has_id id m.
Proof. intros. apply existsb_app. Qed.
Lemma without_none : forall id l, has_id id l = false -> without id l = l.
Proof.
  induction l as [|x l IH]; cbn; auto. destruct (it_id x =? id); cbn; [discriminate|]. intros H. f_equal. now apply IH.
Qed.
Lemma item_with_none : forall id l, has_id id l = false -> item_with id l = None.
Proof. induction l as [|x l IH]; cbn; auto. destruct (it_id x =? id); cbn; [discriminate|auto]. Qed.
Lemma item_with_split : forall l1 it l2, has_id (it_id it) l1 = false -> item_with (it_id it) (l1 ++ it :: l2) = Some it.
Proof.
  induction l1 as [|x l1 IH]; cbn; intros it l2 H; [now rewrite N.eqb_refl|]. destruct (it_id x =? it_id it); [discriminate|]. now apply IH.
Qed.
Lemma without_split : forall l1 it l2, has_id (it_id it) l1 = false -> has_id (it_id it) l2 = false ->
  without (it_id it) (l1 ++ it :: l2) = l1 ++ l2.
Proof.
  intros l1 it l2 H1 H2. unfold without. rewrite filter_app. cbn. rewrite N.eqb_refl. cbn.
  change (without (it_id it) l1 ++ without (it_id it) l2 = l1 ++ l2). now rewrite !without_none.
Qed.

Lemma split_both : forall c l1 it l2, RI c (l1 ++ it :: l2) ->
  exists o1 a o2, c_order c = o1 ++ a :: o2 /\ length o1 = length l1 /\ length o2 = length l2 /\
    ~ In a o1 /\ ~ In a o2 /\ has_id (it_id it) l1 = false /\ has_id (it_id it) l2 = false /\
    c_items c = combine (map it_id l1) o1 ++ (it_id it, a) :: combine (map it_id l2) o2 /\
    lookup a (c_heap c) = Some it /\ lookup (it_id it) (c_items c) = Some a.
Proof.
  intros c l1 it l2 [H1 H2 H3 H4 H5 H6].
  assert (E : exists o1 a o2, c_order c = o1 ++ a :: o2 /\ length o1 = length l1).
  { rewrite app_length in H2. cbn in H2. destruct (skipn (length l1) (c_order c)) as [|a o2] eqn:E.
    - apply (f_equal (@length N)) in E. rewrite skipn_length in E. cbn in E. lia.
    - exists (firstn (length l1) (c_order c)), a, o2. split; [now rewrite <- E, firstn_skipn|]. apply firstn_length_le. lia. }
  destruct E as (o1 & a & o2 & Ho & Hl). exists o1, a, o2.
  rewrite Ho in *. rewrite !app_length in H2. cbn in H2.
  rewrite map_app in H3. cbn in H3. apply NoDup_remove in H3 as [_ H3]. rewrite in_app_iff in H3.
  apply NoDup_remove in H4 as [_ H4]. rewrite in_app_iff in H4.
  assert (G1 : has_id (it_id it) l1 = false) by (apply has_id_false; tauto).
  assert (G2 : has_id (it_id it) l2 = false) by (apply has_id_false; tauto).
  assert (Ei : c_items c = combine (map it_id l1) o1 ++ (it_id it, a) :: combine (map it_id l2) o2).
  { rewrite H1, map_app, combine_app by (rewrite map_length; auto). reflexivity. }
  split; [reflexivity|]. do 6 (split; [first [tauto|lia]|]). split; [exact Ei|]. split.
  - rewrite H6, combine_app by auto. rewrite lookup_app.
    rewrite lookup_none by (rewrite combine_fst by auto; tauto). cbn. now rewrite N.eqb_refl.
  - rewrite Ei, lookup_app. rewrite lookup_none by (rewrite combine_fst by (rewrite map_length; auto); tauto).
    cbn. now rewrite N.eqb_refl.
Qed.

Lemma contains_spec : forall c l id, RI c l -> ic_contains c id = has_id id l.
Proof.
  intros c l id H. unfold ic_contains. destruct (has_id id l) eqn:E.
  - destruct (split_at id l E) as (l1 & it & l2 & -> & <- & _).
    destruct (split_both c l1 it l2 H) as (o1 & a & o2 & _ & _ & _ & _ & _ & _ & _ & _ & _ & ->). reflexivity.
  - rewrite (ri_items _ _ H), lookup_none; [reflexivity|].
    rewrite combine_fst by (rewrite map_length; symmetry; apply H). apply has_id_false. exact E.
Qed.

Lemma size_spec : forall c l, RI c l -> ic_size c = lenN l /\ lenN (c_order c) = lenN l.
Proof.
  intros c l [H1 H2 _ _ _ _]. unfold ic_size. rewrite H1. unfold lenN. rewrite combine_length, map_length. lia.
Qed.

Lemma RI_empty : RI ic_empty_coll [].
Proof. split; cbn; auto; constructor || contradiction. Qed.

Lemma lookup_fresh : forall c l a, RI c l -> c_next c <= a -> lookup a (c_heap c) = None.
Proof.
  intros c l a H Ha. rewrite (ri_heap _ _ H). apply lookup_none. rewrite combine_fst by apply H.
  intros Hin. apply (ri_next _ _ H) in Hin. lia.
Qed.

Lemma RI_new_free : forall c l it, RI c l -> RI (free_item (snd (new_item c it)) (c_next c)) l.
Proof.
  intros c l it H. pose proof H as [H1 H2 H3 H4 H5 H6]. split; cbn [new_item snd free_item c_items c_order c_heap c_next]; auto.
  - intros a Ha. specialize (H5 a Ha). lia.
  - intros a. cbn [remove_key]. rewrite N.eqb_refl. rewrite lookup_remove. destruct (c_next c =? a) eqn:E; [|apply H6].
    rewrite <- H6. symmetry. eapply lookup_fresh; eauto. lia.
Qed.

Lemma NoDup_snoc : forall (A : Type) (l : list A) x, NoDup l -> ~ In x l -> NoDup (l ++ [x]).
Proof.
  induction l as [|y l IH]; intros x H Hx; cbn; [repeat constructor; auto|]. inversion H; subst. cbn in Hx.
  constructor; [rewrite in_app_iff; cbn; intuition congruence|]. apply IH; auto.
Qed.

Lemma RI_add : forall c l it, RI c l -> has_id (it_id it) l = false ->
  let c1 := snd (new_item c it) in
  RI (mk_coll (c_items c1 ++ [(it_id it, c_next c)]) (c_order c1 ++ [c_next c]) (c_heap c1) (c_next c1)) (l ++ [it]).
Proof.
  intros c l it H Hid. pose proof H as [H1 H2 H3 H4 H5 H6].
  assert (Hf : ~ In (c_next c) (c_order c)) by (intros Hin; apply H5 in Hin; lia).
  split; cbn [new_item snd c_items c_order c_heap c_next].
  - rewrite H1, map_app, combine_app by (rewrite map_length; auto). reflexivity.
  - rewrite !app_length, H2. reflexivity.
  - rewrite map_app. cbn. apply has_id_false in Hid. now apply NoDup_snoc.
  - now apply NoDup_snoc.
  - intros a Ha. apply in_app_iff in Ha as [Ha|[Ha|[]]]; [specialize (H5 a Ha)|]; lia.
  - intros a. rewrite combine_app by auto. rewrite lookup_app. cbn [lookup combine]. rewrite <- H6.
    destruct (c_next c =? a) eqn:E.
    + rewrite (lookup_fresh c l a H) by lia. reflexivity.
    + now destruct (lookup a (c_heap c)).
Qed.

Lemma dassert_sizes : forall c l, RI c l -> dassert b (sizes_match c) = Ok tt.
Proof.
  intros c l H. destruct (size_spec c l H) as [A B]. unfold sizes_match. rewrite A, B, N.eqb_refl. now destruct b.
Qed.

Lemma insert_ok : forall c l it al r l', RI c l -> spec_insert l it al = Some (r, l') ->
  exists c', ic_insert b c it al = (r, c') /\ RI c' l'.
Proof.
  intros c l it al r l' H E. unfold spec_insert in E. unfold ic_insert. rewrite (contains_spec _ _ _ H).
  destruct (has_id (it_id it) l) eqn:Eh; [injection E as <- <-; eauto|].
  destruct (al_item al); cbn [andb negb] in E; [|injection E as <- <-; eauto].
  cbn [new_item]. unfold ic_unchecked_insert.
  change (ic_contains _ (it_id it)) with (ic_contains c (it_id it)). rewrite (contains_spec _ _ _ H), Eh.
  destruct (al_node al); cbn [negb] in E.
  2:{ injection E as <- <-. eexists. split; [reflexivity|]. apply (RI_new_free c l it H). }
  destruct (al_push al); [|discriminate]. injection E as <- <-.
  pose proof (RI_add c l it H Eh) as G. cbn [new_item snd c_items c_order c_heap c_next] in *.
  rewrite (dassert_sizes _ _ G). cbn [obind]. eauto.
Qed.

Lemma try_unchecked_ok : forall c l it al r l', RI c l -> al_item al = true -> spec_try_insert l it al = Some (r, l') ->
  exists c', ic_try_unchecked_insert b (snd (new_item c it)) (it_id it) (c_next c) al = (r, c') /\ RI c' l'.
Proof.
  intros c l it al r l' H Hal E. unfold spec_try_insert in E. rewrite Hal in E. cbn [negb] in E. unfold ic_try_unchecked_insert.
  change (ic_contains (snd (new_item c it)) (it_id it)) with (ic_contains c (it_id it)). rewrite (contains_spec _ _ _ H).
  destruct (has_id (it_id it) l) eqn:Eh.
  { injection E as <- <-. pose proof (RI_new_free c l it H) as G. rewrite (dassert_sizes _ _ G). cbn [obind]. eauto. }
  destruct (al_node al); cbn [negb] in E.
  2:{ injection E as <- <-. eexists. split; [reflexivity|]. apply (RI_new_free c l it H). }
  destruct (al_push al); [|discriminate]. injection E as <- <-.
  pose proof (RI_add c l it H Eh) as G. cbn [new_item snd c_items c_order c_heap c_next] in *.
  rewrite (dassert_sizes _ _ G). cbn [obind]. eauto.
Qed.

Lemma try_insert_ok : forall c l it al r l', RI c l -> spec_try_insert l it al = Some (r, l') ->
  exists c', ic_try_insert b c it al = (r, c') /\ RI c' l'.
Proof.
  intros c l it al r l' H E. unfold ic_try_insert. destruct (al_item al) eqn:Ea.
  - destruct (try_unchecked_ok c l it al r l' H Ea E) as (c' & G). exists c'. exact G.
  - unfold spec_try_insert in E. rewrite Ea in E. injection E as <- <-. eauto.
Qed.

Lemma emplace_ok : forall c l it al r l', RI c l -> spec_try_insert l it al = Some (r, l') ->
  exists r' c', ic_emplace b c it al = (r', c') /\ RI c' l' /\
    omap (fun _ => tt) r' = (match r with Ok true => Ok tt | Ok false => Throw logic_error | Throw e => Throw e | _ => UB end).
Proof.
  intros c l it al r l' H E. unfold ic_emplace. destruct (al_item al) eqn:Ea.
  - destruct (try_unchecked_ok c l it al r l' H Ea E) as (c' & G1 & G2). cbn [new_item snd] in *. rewrite G1.
    destruct r as [[|]|e| | |]; try (do 2 eexists; split; [reflexivity|]; split; [exact G2|reflexivity]);
    unfold spec_try_insert in E; destruct (negb (al_item al)), (has_id (it_id it) l), (negb (al_node al)), (al_push al); discriminate E.
  - unfold spec_try_insert in E. rewrite Ea in E. injection E as <- <-. do 2 eexists. split; [reflexivity|]. split; [exact H|reflexivity].
Qed.

Lemma insert_each_ok : forall xs c l r l', RI c l -> spec_insert_each l xs = Some (r, l') ->
  exists c', ic_insert_each b c xs = (r, c') /\ RI c' l'.
Proof.
  induction xs as [|[it al] xs IH]; intros c l r l' H E; cbn [spec_insert_each ic_insert_each] in *.
  - injection E as <- <-. eauto.
  - destruct (spec_insert l it al) as [[r1 l1]|] eqn:E1; [|discriminate].
    destruct (insert_ok _ _ _ _ _ _ H E1) as (c1 & -> & H1).
    destruct r1; try (injection E as <- <-; eauto). eapply IH; eauto.
Qed.

Lemma try_insert_each_ok : forall xs c l r l', RI c l -> spec_try_insert_each l xs = Some (r, l') ->
  exists c', ic_try_insert_each b c xs = (r, c') /\ RI c' l'.
Proof.
  induction xs as [|[it al] xs IH]; intros c l r l' H E; cbn [spec_try_insert_each ic_try_insert_each] in *.
  - injection E as <- <-. eauto.
  - destruct (spec_try_insert l it al) as [[r1 l1]|] eqn:E1; [|discriminate].
    destruct (try_insert_ok _ _ _ _ _ _ H E1) as (c1 & -> & H1).
    destruct r1; try discriminate; try (injection E as <- <-; eauto; fail).
    destruct (spec_try_insert_each l1 xs) as [[rs l2]|] eqn:E2; [|discriminate]. injection E as <- <-.
    destruct (IH _ _ _ _ H1 E2) as (c2 & -> & H2). eauto.
Qed.

Lemma insert_range_ok : forall xs c l r l', RI c l -> spec_try_insert_each l xs = Some (r, l') ->
  exists c', ic_insert_range b c xs = (omap (fun _ => tt) r, c') /\ RI c' l'.
Proof.
  induction xs as [|[it al] xs IH]; intros c l r l' H E; cbn [spec_try_insert_each ic_insert_range] in *.
  - injection E as <- <-. eauto.
  - destruct (spec_try_insert l it al) as [[r1 l1]|] eqn:E1; [|discriminate].
    destruct (try_insert_ok _ _ _ _ _ _ H E1) as (c1 & -> & H1).
    destruct r1; try discriminate; try (injection E as <- <-; eauto; fail).
    destruct (spec_try_insert_each l1 xs) as [[rs l2]|] eqn:E2; [|discriminate]. injection E as <- <-.
    destruct (IH _ _ _ _ H1 E2) as (c2 & -> & H2). exists c2. split; [|exact H2]. now destruct rs.
Qed.

(** Looking through the ordered pointers *)
Lemma find_by_id_app : forall c id o l a rest, Forall2 (fun a it => lookup a (c_heap c) = Some it) o l ->
  has_id id l = false -> (exists it, lookup a (c_heap c) = Some it /\ it_id it = id) ->
  find_by_id c id (o ++ a :: rest) = Ok (Some (o, rest)).
Proof.
  intros c id o l a rest H. induction H as [|x y o l H1 H IH]; intros Hid (it & Ha & Hi); cbn.
  - unfold deref. rewrite Ha. cbn [obind]. rewrite (proj2 (N.eqb_eq _ _) Hi). reflexivity.
  - unfold deref. rewrite H1. cbn in Hid. apply orb_false_iff in Hid as [E Hid]. cbn [obind]. rewrite E. rewrite IH by eauto. reflexivity.
Qed.
Lemma find_by_id_none : forall c id o l, Forall2 (fun a it => lookup a (c_heap c) = Some it) o l ->
  has_id id l = false -> find_by_id c id o = Ok None.
Proof.
  intros c id o l H. induction H as [|x y o l H1 H IH]; intros Hid; cbn; auto.
  unfold deref. rewrite H1. cbn in Hid. apply orb_false_iff in Hid as [E Hid]. cbn [obind]. rewrite E. rewrite IH by auto. reflexivity.
Qed.
Lemma points : forall c l, RI c l -> Forall2 (fun a it => lookup a (c_heap c) = Some it) (c_order c) l.
Proof.
  intros c l H.
  assert (G : forall l2 l1 o1 o2, l = l1 ++ l2 -> c_order c = o1 ++ o2 -> length o1 = length l1 ->
    Forall2 (fun a it => lookup a (c_heap c) = Some it) o2 l2).
  { induction l2 as [|it l2 IH]; intros l1 o1 o2 Hl Ho Hlen.
    - pose proof (ri_len _ _ H) as E. rewrite Hl, Ho, !app_length in E. cbn in E. destruct o2; [constructor|cbn in E; lia].
    - subst l. destruct (split_both c l1 it l2 H) as (o1' & a & o2' & Eo & El & _ & _ & _ & _ & _ & _ & Ea & _).
      rewrite Ho in Eo. assert (o1 = o1' /\ o2 = a :: o2') as [-> ->].
      { clear - Eo Hlen El. assert (length o1 = length o1') by lia. clear Hlen El. revert o1' H Eo.
        induction o1; intros [|y o1'] H Eo; try discriminate; [auto|]. injection Eo as -> Eo. destruct (IHo1 o1') as [-> ->]; auto. }
      constructor; [exact Ea|]. apply (IH (l1 ++ [it]) (o1' ++ [a])); rewrite <- ?app_assoc; auto. rewrite !app_length. cbn. lia. }
  apply (G l [] []); auto.
Qed.

Lemma RI_remove : forall c l1 it l2 o1 a o2, RI c (l1 ++ it :: l2) -> c_order c = o1 ++ a :: o2 -> length o1 = length l1 ->
  RI (mk_coll (remove_key (it_id it) (c_items c)) (o1 ++ o2) (remove_key a (c_heap c)) (c_next c)) (l1 ++ l2).
Proof.
  intros c l1 it l2 o1 a o2 H Ho Hl.
  destruct (split_both c l1 it l2 H) as (o1' & a' & o2' & Eo & El & El2 & Na1 & Na2 & G1 & G2 & Ei & Eh & _).
  assert (o1 = o1' /\ a = a' /\ o2 = o2') as (-> & -> & ->).
  { clear - Eo Ho Hl El. rewrite Ho in Eo. assert (length o1 = length o1') by lia. clear Hl El Ho. revert o1' H Eo.
    induction o1; intros [|y o1'] H Eo; try discriminate; [injection Eo; auto|]. injection Eo as -> Eo. destruct (IHo1 o1') as (-> & -> & ->); auto. }
  pose proof H as [H1 H2 H3 H4 H5 H6]. split; cbn [c_items c_order c_heap c_next].
  - rewrite Ei, remove_app. cbn. rewrite N.eqb_refl.
    rewrite !remove_none by (apply lookup_none; rewrite combine_fst by (rewrite map_length; auto); now apply has_id_false).
    rewrite map_app, combine_app by (rewrite map_length; auto). reflexivity.
  - rewrite !app_length. lia.
  - rewrite map_app in *. cbn in H3. apply NoDup_remove_1 in H3. exact H3.
  - rewrite Eo in H4. apply NoDup_remove_1 in H4. exact H4.
  - intros x Hx. apply H5. rewrite Eo. apply in_app_iff. apply in_app_iff in Hx. cbn. tauto.
  - intros x. rewrite lookup_remove, H6, Eo. rewrite !combine_app by auto. rewrite !lookup_app. cbn [combine lookup].
    destruct (a' =? x) eqn:E.
    + apply N.eqb_eq in E. subst x. rewrite (lookup_none _ a' (combine o1' l1)) by (rewrite combine_fst by auto; auto).
      symmetry. apply lookup_none. rewrite combine_fst by auto. auto.
    + reflexivity.
Qed.

Lemma erase_ok : forall c l id, RI c l -> exists c', ic_erase c id = (Ok (has_id id l), c') /\ RI c' (without id l).
Proof.
  intros c l id H. unfold ic_erase. destruct (has_id id l) eqn:E.
  - destruct (split_at id l E) as (l1 & it & l2 & -> & <- & Hn).
    destruct (split_both c l1 it l2 H) as (o1 & a & o2 & Eo & El & El2 & Na1 & Na2 & G1 & G2 & Ei & Eh & Em).
    assert (P : Forall2 (fun a it => lookup a (c_heap c) = Some it) o1 l1).
    { pose proof (points _ _ H) as P. rewrite Eo in P. clear - P El. revert l1 El P. induction o1; intros [|y l1] El P; try discriminate; constructor.
      - now inversion P.
      - inversion P; subst. apply IHo1; auto. }
    rewrite Eo, (find_by_id_app c (it_id it) o1 l1 a o2 P G1) by eauto.
    unfold map_erase. cbn [c_items c_order c_heap c_next]. rewrite Em. eexists. split; [reflexivity|].
    rewrite without_split by auto. exact (RI_remove c l1 it l2 o1 a o2 H Eo El).
  - rewrite (find_by_id_none c id _ l (points _ _ H) E). eexists. split; [reflexivity|]. now rewrite without_none.
Qed.

Lemma erase_each_ok : forall ids c l, RI c l ->
  exists c', ic_erase_each c ids = (Ok (fst (spec_erase_each l ids)), c') /\ RI c' (snd (spec_erase_each l ids)).
Proof.
  induction ids as [|id ids IH]; intros c l H; cbn [ic_erase_each spec_erase_each]; [cbn; eauto|].
  destruct (erase_ok c l id H) as (c1 & -> & H1). destruct (IH _ _ H1) as (c2 & -> & H2).
  destruct (spec_erase_each (without id l) ids) as [rs l']. cbn in *. eauto.
Qed.

Lemma find_ptr_app : forall a o1 o2, ~ In a o1 -> find_ptr a (o1 ++ a :: o2) = Some (o1, o2).
Proof.
  induction o1 as [|x o1 IH]; intros o2 H; cbn; [now rewrite N.eqb_refl|]. cbn in H.
  rewrite (proj2 (N.eqb_neq _ _)) by tauto. rewrite IH by tauto. reflexivity.
Qed.

Lemma excise_ok : forall c l id, RI c l -> exists c', ic_excise b c id = (Ok (item_with id l), c') /\ RI c' (without id l).
Proof.
  intros c l id H. unfold ic_excise. destruct (has_id id l) eqn:E.
  - destruct (split_at id l E) as (l1 & it & l2 & -> & <- & Hn).
    destruct (split_both c l1 it l2 H) as (o1 & a & o2 & Eo & El & El2 & Na1 & Na2 & G1 & G2 & Ei & Eh & Em).
    rewrite Em. cbn [c_items c_order c_heap c_next]. rewrite Eo, find_ptr_app by auto.
    unfold deref. rewrite Eh. eexists. split; [cbn [omap obind]; rewrite item_with_split by auto; reflexivity|].
    rewrite without_split by auto. exact (RI_remove c l1 it l2 o1 a o2 H Eo El).
  - pose proof (contains_spec c l id H) as C. rewrite E in C. unfold ic_contains in C.
    destruct (lookup id (c_items c)); [discriminate|]. eexists. split; [now rewrite item_with_none|]. now rewrite without_none.
Qed.

Lemma at_id_ok : forall c l id, RI c l -> ic_at_id c id = found (item_with id l).
Proof.
  intros c l id H. unfold ic_at_id. destruct (has_id id l) eqn:E.
  - destruct (split_at id l E) as (l1 & it & l2 & -> & <- & Hn).
    destruct (split_both c l1 it l2 H) as (o1 & a & o2 & Eo & El & El2 & Na1 & Na2 & G1 & G2 & Ei & Eh & Em).
    rewrite Em, item_with_split by auto. unfold deref. now rewrite Eh.
  - pose proof (contains_spec c l id H) as C. rewrite E in C. unfold ic_contains in C.
    destruct (lookup id (c_items c)); [discriminate|]. now rewrite item_with_none.
Qed.

Lemma at_index_ok : forall c l i, RI c l -> ic_at_index c i = found (nth_error l (N.to_nat i)).
Proof.
  intros c l i H. unfold ic_at_index. destruct (size_spec c l H) as [_ ->].
  destruct (lenN l <=? i) eqn:E.
  - replace (nth_error l (N.to_nat i)) with (@None item); [reflexivity|]. symmetry. apply nth_error_None. unfold lenN in E. lia.
  - destruct (nth_error l (N.to_nat i)) as [it|] eqn:En; [|apply nth_error_None in En; unfold lenN in E; lia].
    apply nth_error_split in En as (l1 & l2 & -> & Hl).
    destruct (split_both c l1 it l2 H) as (o1 & a & o2 & Eo & El & El2 & Na1 & Na2 & G1 & G2 & Ei & Eh & Em).
    rewrite Eo, <- Hl, <- El, nth_error_app_at. unfold deref. now rewrite Eh.
Qed.

Lemma raw_ok : forall c l, RI c l -> ic_raw c = map Some l.
Proof.
  intros c l H. unfold ic_raw. pose proof (points _ _ H) as P. clear H. induction P; cbn; congruence.
Qed.
Lemma iterate_ok : forall c l, RI c l -> ic_iterate b c = Ok l /\ ic_riterate b c = Ok (rev l).
Proof.
  intros c l H. unfold ic_iterate, ic_riterate, di_begin_of, di_end_of. rewrite (raw_ok _ _ H).
  destruct (size_spec c l H) as [_ ->]. rewrite (ri_len _ _ H). split.
  - pose proof (di_walk_spec b (map Some l) [] l 0 [] eq_refl (length l) eq_refl) as W.
    cbn [app length Nat.add] in W. rewrite map_length, app_nil_r in W. unfold lenN. rewrite nat_N_Z. exact W.
  - replace (Z.of_N (lenN l)) with (Z.of_nat (length l)) by (unfold lenN; lia).
    pose proof (di_rwalk_spec b l 0 [] (Z.of_nat (length l)) (length l) eq_refl) as W. rewrite app_nil_r in W. exact W.
Qed.

Lemma clear_ok : forall c l, RI c l -> RI (ic_clear c) [].
Proof.
  intros c l H. split; cbn; auto; try constructor; try contradiction.
  intros a. destruct (lookup a (filter _ (c_heap c))) as [it|] eqn:E; [|reflexivity]. exfalso.
  assert (G : In a (c_order c)).
  { destruct (in_dec N.eq_dec a (c_order c)) as [|Hn]; auto. exfalso.
    assert (L : lookup a (c_heap c) = None) by (rewrite (ri_heap _ _ H); apply lookup_none; rewrite combine_fst by apply H; auto).
    clear - E L. induction (c_heap c) as [|[k x] h IH]; [discriminate|]. cbn in *. destruct (k =? a) eqn:Ek; [discriminate|].
    destruct (negb _); cbn in E; rewrite ?Ek in E; auto. }
  assert (K : existsb (fun y => snd y =? a) (c_items c) = true).
  { rewrite <- (combine_snd _ _ (map it_id l) (c_order c)) in G by (rewrite map_length; symmetry; apply H). rewrite <- (ri_items _ _ H) in G.
    apply in_map_iff in G as (y & <- & Hy). apply existsb_exists. exists y. split; auto. apply N.eqb_refl. }
  clear - E K. induction (c_heap c) as [|[k x] h IH]; [discriminate|]. cbn in E.
  destruct (existsb (fun y => snd y =? k) (c_items c)) eqn:Ex; cbn in E; [auto|].
  destruct (k =? a) eqn:Ek; auto. apply N.eqb_eq in Ek. subst k. rewrite K in Ex. discriminate.
Qed.

Lemma assign_ok : forall c l id it, RI c l -> has_id id l = true -> it_id it = id ->
  exists a c', lookup id (c_items c) = Some a /\ ic_assign_through c a it = (Ok tt, c') /\
    RI c' (map (fun x => if it_id x =? id then it else x) l).
Proof.
  intros c l id it H Hid Hit. destruct (split_at id l Hid) as (l1 & it0 & l2 & -> & <- & Hn).
  destruct (split_both c l1 it0 l2 H) as (o1 & a & o2 & Eo & El & El2 & Na1 & Na2 & G1 & G2 & Ei & Eh & Em).
  exists a. unfold ic_assign_through. rewrite Eh. eexists. split; [exact Em|]. split; [reflexivity|].
  assert (Me : forall m, has_id (it_id it0) m = false -> map (fun x => if it_id x =? it_id it0 then it else x) m = m).
  { induction m as [|x m IH]; cbn; auto. destruct (it_id x =? it_id it0); [discriminate|]. intros Hm. now rewrite IH. }
  rewrite map_app. cbn [map]. rewrite N.eqb_refl, !Me by auto.
  pose proof H as [H1 H2 H3 H4 H5 H6].
  assert (Emap : map it_id (l1 ++ it :: l2) = map it_id (l1 ++ it0 :: l2)) by (rewrite !map_app; cbn; now rewrite Hit).
  split; cbn [c_items c_order c_heap c_next]; auto.
  - now rewrite Emap.
  - rewrite H2, !app_length. reflexivity.
  - now rewrite Emap.
  - intros x. rewrite lookup_replace, Eh, H6, Eo, !combine_app by auto. rewrite !lookup_app. cbn [combine lookup].
    destruct (a =? x) eqn:E; [|reflexivity].
    apply N.eqb_eq in E. subst x. rewrite (lookup_none _ a (combine o1 l1)) by (rewrite combine_fst by auto; auto). reflexivity.
Qed.

Lemma ic_step_ok : forall o c l x l', RI c l -> spec_step o l = Some (x, l') ->
  exists c', ic_step b o c = (x, c') /\ RI c' l'.
Proof.
  intros o c l x l' H E. destruct o; cbn [spec_step ic_step] in *.
  - destruct (spec_insert l it al) as [[r l1]|] eqn:E1; [|discriminate]. injection E as <- <-.
    destruct (insert_ok _ _ _ _ _ _ H E1) as (c' & -> & G). eauto.
  - destruct (spec_try_insert l it al) as [[r l1]|] eqn:E1; [|discriminate]. injection E as <- <-.
    destruct (try_insert_ok _ _ _ _ _ _ H E1) as (c' & -> & G). eauto.
  - destruct (spec_try_insert_each l l0) as [[r l1]|] eqn:E1; [|discriminate]. injection E as <- <-.
    destruct (insert_range_ok _ _ _ _ _ H E1) as (c' & -> & G). eauto.
  - destruct (spec_insert_each l l0) as [[r l1]|] eqn:E1; [|discriminate]. injection E as <- <-.
    destruct (insert_each_ok _ _ _ _ _ H E1) as (c' & -> & G). eauto.
  - destruct (spec_try_insert_each l l0) as [[r l1]|] eqn:E1; [|discriminate]. injection E as <- <-.
    destruct (try_insert_each_ok _ _ _ _ _ H E1) as (c' & -> & G). eauto.
  - injection E as <- <-. destruct (erase_ok c l id H) as (c' & -> & G). eauto.
  - destruct (erase_each_ok ids c l H) as (c' & -> & G). destruct (spec_erase_each l ids) as [rs l1]. injection E as <- <-. eauto.
  - destruct (spec_try_insert l it al) as [[r l1]|] eqn:E1; [|discriminate].
    destruct (emplace_ok _ _ _ _ _ _ H E1) as (r' & c' & -> & G & ->).
    destruct r as [[|]|e| | |]; try discriminate; injection E as <- <-; eauto.
  - destruct (has_id id l) eqn:Eh; [|discriminate]. destruct (it_id it =? id) eqn:Ei; [|discriminate]. injection E as <- <-.
    destruct (assign_ok c l id it H Eh) as (a & c' & -> & -> & G); [lia|]. eauto.
  - injection E as <- <-. destruct (excise_ok c l id H) as (c' & -> & G). eauto.
  - injection E as <- <-. eexists. split; [reflexivity|]. eapply clear_ok; eauto.
  - injection E as <- <-. rewrite (at_id_ok _ _ _ H). eauto.
  - injection E as <- <-. rewrite (at_index_ok _ _ _ H). eauto.
  - injection E as <- <-. rewrite (contains_spec _ _ _ H). eauto.
  - injection E as <- <-. rewrite (proj1 (size_spec _ _ H)). eauto.
  - injection E as <- <-. unfold ic_empty. rewrite (ri_items _ _ H). pose proof (ri_len _ _ H) as L.
    exists c. split; [|exact H]. destruct l, (c_order c); try discriminate; reflexivity.
  - injection E as <- <-. rewrite (proj1 (iterate_ok _ _ H)). eauto.
  - injection E as <- <-. rewrite (proj2 (iterate_ok _ _ H)). eauto.
Qed.

Lemma ic_run_ok : forall ops c l xs l', RI c l -> spec_run ops l = Some (xs, l') ->
  exists c', ic_run b ops c = (xs, c') /\ RI c' l'.
Proof.
  induction ops as [|o ops IH]; intros c l xs l' H E; cbn [spec_run ic_run] in *.
  - injection E as <- <-. eauto.
  - destruct (spec_step o l) as [[x l1]|] eqn:E1; [|discriminate].
    destruct (spec_run ops l1) as [[ys l2]|] eqn:E2; [|discriminate]. injection E as <- <-.
    destruct (ic_step_ok _ _ _ _ _ H E1) as (c1 & -> & H1). destruct (IH _ _ _ _ H1 E2) as (c2 & -> & H2). eauto.
Qed.

(** The statements used in Coll_Props.v *)
Lemma coll_refines : forall ops xs l, spec_run ops [] = Some (xs, l) ->
  exists c, ic_run b ops ic_empty_coll = (xs, c) /\
    (forall id, ic_at_id c id = found (item_with id l)) /\
    (forall i, ic_at_index c i = found (nth_error l (N.to_nat i))) /\
    ic_iterate b c = Ok l /\ ic_size c = lenN l /\ (forall id, ic_contains c id = has_id id l).
Proof.
  intros ops xs l E. destruct (ic_run_ok ops _ _ _ _ RI_empty E) as (c & Hc & H). exists c.
  split; [exact Hc|]. split; [intros; now apply at_id_ok|]. split; [intros; now apply at_index_ok|].
  split; [now apply iterate_ok|]. split; [now apply size_spec|]. intros; now apply contains_spec.
Qed.
Lemma spec_ids_distinct : forall ops xs l, spec_run ops [] = Some (xs, l) -> NoDup (map it_id l).
Proof.
  intros ops xs l E. destruct (ic_run_ok ops _ _ _ _ RI_empty E) as (c & Hc & H). apply H.
Qed.
Lemma at_id_has_id : forall ops xs l, spec_run ops [] = Some (xs, l) ->
  forall c, ic_run b ops ic_empty_coll = (xs, c) -> forall id it, ic_at_id c id = Ok it -> it_id it = id.
Proof.
  intros ops xs l E c Hc id it Hi. destruct (ic_run_ok ops _ _ _ _ RI_empty E) as (c' & Hc' & H).
  rewrite Hc in Hc'. injection Hc' as <-. rewrite (at_id_ok _ _ _ H) in Hi. unfold found, item_with in Hi.
  destruct (find _ l) as [x|] eqn:Ef; [|discriminate]. injection Hi as <-. apply find_some in Ef as [_ Ef]. lia.
Qed.
(** Nothing is leaked and nothing dangles: the living items are those pointed to. *)
Lemma no_leak : forall ops xs l, spec_run ops [] = Some (xs, l) ->
  forall c, ic_run b ops ic_empty_coll = (xs, c) -> forall a, lookup a (c_heap c) <> None <-> In a (c_order c).
Proof.
  intros ops xs l E c Hc a. destruct (ic_run_ok ops _ _ _ _ RI_empty E) as (c' & Hc' & H).
  rewrite Hc in Hc'. injection Hc' as <-. split.
  - intros Hn. destruct (in_dec N.eq_dec a (c_order c)) as [|Hni]; auto. exfalso. apply Hn.
    rewrite (ri_heap _ _ H). apply lookup_none. rewrite combine_fst by apply H. exact Hni.
  - intros Hin. pose proof (points _ _ H) as P. clear - P Hin. induction P; [contradiction|]. destruct Hin as [<-|Hin]; [congruence|auto].
Qed.

(** Several inserts *)
Lemma spec_insert_each_prefix : forall xs l r l', Forall (fun x => snd x = all_ok) xs ->
  spec_insert_each l xs = Some (r, l') ->
  l' = l ++ fresh_prefix l (map fst xs) /\
  r = (if lenN (fresh_prefix l (map fst xs)) =? lenN xs then Ok tt else Throw logic_error).
Proof.
  induction xs as [|[it al] xs IH]; intros l r l' Hal E; cbn [spec_insert_each map fst fresh_prefix] in *.
  - injection E as <- <-. now rewrite app_nil_r.
  - inversion Hal; subst. cbn in H1. subst al. unfold spec_insert in E. cbn in E. destruct (has_id (it_id it) l).
    + injection E as <- <-. rewrite app_nil_r. rewrite lenN_cons, lenN_nil. split; auto.
      rewrite (proj2 (N.eqb_neq _ _)) by lia. reflexivity.
    + apply IH in E as [-> ->]; auto. rewrite <- app_assoc. split; auto. rewrite !lenN_cons.
      match goal with |- (if ?x then _ else _) = (if ?y then _ else _) => replace x with y; [reflexivity|] end.
      apply eq_true_iff_eq. rewrite !N.eqb_eq. lia.
Qed.
Lemma spec_insert_each_total : forall xs l, Forall (fun x => snd x = all_ok) xs -> exists r l', spec_insert_each l xs = Some (r, l').
Proof.
  induction xs as [|[it al] xs IH]; intros l Hal; cbn; [eauto|]. inversion Hal; subst. cbn in H1. subst al.
  unfold spec_insert. cbn. destruct (has_id _ _); [eauto|]. apply IH; auto.
Qed.
Lemma insert_each_prefix : forall ops ys l xs, spec_run ops [] = Some (ys, l) -> Forall (fun x => snd x = all_ok) xs ->
  exists c c', ic_run b ops ic_empty_coll = (ys, c) /\
    ic_insert_each b c xs = (if lenN (fresh_prefix l (map fst xs)) =? lenN xs then Ok tt else Throw logic_error, c') /\
    ic_iterate b c' = Ok (l ++ fresh_prefix l (map fst xs)).
Proof.
  intros ops ys l xs E Hal. destruct (ic_run_ok ops _ _ _ _ RI_empty E) as (c & Hc & H).
  destruct (spec_insert_each_total xs l Hal) as (r & l' & E2). destruct (insert_each_ok _ _ _ _ _ H E2) as (c' & Hc' & H').
  destruct (spec_insert_each_prefix _ _ _ _ Hal E2) as [-> ->]. exists c, c'. split; [exact Hc|]. split; [exact Hc'|]. now apply iterate_ok.
Qed.
(** A single insert that throws changes nothing, if the vector's growth did not fail. *)
Lemma single_insert_atomic : forall ops ys l it al, spec_run ops [] = Some (ys, l) -> al_push al = true ->
  forall c, ic_run b ops ic_empty_coll = (ys, c) ->
  forall e c', (ic_insert b c it al = (Throw e, c') \/ ic_try_insert b c it al = (Throw e, c') \/ ic_emplace b c it al = (Throw e, c')) ->
  ic_iterate b c' = Ok l /\ ic_size c' = lenN l /\ (forall id, ic_contains c' id = has_id id l) /\ (forall id, ic_at_id c' id = ic_at_id c id).
Proof.
  intros ops ys l it al E Hp c Hc e c' Hop. destruct (ic_run_ok ops _ _ _ _ RI_empty E) as (c0 & Hc' & H).
  rewrite Hc in Hc'. injection Hc' as <-.
  assert (G : RI c' l).
  { destruct Hop as [Hop|[Hop|Hop]].
    - assert (exists r l', spec_insert l it al = Some (r, l')) as (r & l' & Es).
      { unfold spec_insert. rewrite Hp. destruct (has_id _ _), (al_item al), (al_node al); cbn; eauto. }
      destruct (insert_ok _ _ _ _ _ _ H Es) as (c2 & Hi & G). rewrite Hop in Hi. injection Hi as <- <-.
      unfold spec_insert in Es. rewrite Hp in Es. destruct (has_id _ _), (al_item al), (al_node al); cbn in Es; injection Es as Er <-; auto; discriminate.
    - assert (exists r l', spec_try_insert l it al = Some (r, l')) as (r & l' & Es).
      { unfold spec_try_insert. rewrite Hp. destruct (has_id _ _), (al_item al), (al_node al); cbn; eauto. }
      destruct (try_insert_ok _ _ _ _ _ _ H Es) as (c2 & Hi & G). rewrite Hop in Hi. injection Hi as <- <-.
      unfold spec_try_insert in Es. rewrite Hp in Es. destruct (has_id _ _), (al_item al), (al_node al); cbn in Es; injection Es as Er <-; auto; discriminate.
    - assert (exists r l', spec_try_insert l it al = Some (r, l')) as (r & l' & Es).
      { unfold spec_try_insert. rewrite Hp. destruct (has_id _ _), (al_item al), (al_node al); cbn; eauto. }
      destruct (emplace_ok _ _ _ _ _ _ H Es) as (r2 & c2 & Hi & G & Hr). rewrite Hop in Hi. injection Hi as <- <-.
      unfold spec_try_insert in Es. rewrite Hp in Es. destruct (has_id _ _), (al_item al), (al_node al); cbn in Es; injection Es as Er <-; auto; subst r; discriminate Hr. }
  split; [now apply iterate_ok|]. split; [now apply size_spec|]. split; [intros; now apply contains_spec|].
  intros id. rewrite (at_id_ok _ _ _ G), (at_id_ok _ _ _ H). reflexivity.
Qed.
End IC.
