(** Proofs for C105. *)
From Coq Require Import List. Import ListNotations.
From Verif Require Import Base BaseFacts Iter_Model Sv_Model Ident_Model Coll_Spec Ident_Proofs IdentRef_Model IdentRef_Spec IdentRef_Proofs
  IdentIter_Model IdentIter_Spec.
From Verif Require SvIter_Spec SvIter_Proofs.
Local Open Scope N_scope.

Definition ids (l : list item) : list N := map it_id l.
Definition addr (c : coll) (id : N) : N := match lookup id (c_items c) with Some a => a | None => 0 end.

Lemma order_map c l : RI c l -> c_order c = map (addr c) (ids l).
Proof.
  intros H. unfold addr. rewrite (ri_items _ _ H). pose proof (ri_len _ _ H) as L. pose proof (ri_ids _ _ H) as ND. clear H.
  unfold ids. revert l L ND. induction (c_order c) as [|a o IH]; intros [|x l] L ND; try discriminate; [reflexivity|].
  cbn [map combine lookup]. rewrite N.eqb_refl. f_equal. inversion ND as [|? ? N1 N2]; subst.
  rewrite (IH l) at 1 by (auto; now injection L). apply map_ext_in. intros id I. cbn [lookup].
  destruct (it_id x =? id) eqn:E; [|reflexivity]. apply N.eqb_eq in E. now subst.
Qed.
Lemma addr_inj c l id id' : RI c l -> In id (ids l) -> In id' (ids l) -> addr c id = addr c id' -> id = id'.
Proof.
  intros H. pose proof (order_map c l H) as O. pose proof (ri_addr _ _ H) as ND. rewrite O in ND. clear O H.
  induction (ids l) as [|x xs IH]; [intros []|]. cbn [map] in ND. inversion ND as [|? ? N1 N2]; subst.
  intros [->|I] [->|J] E; auto.
  - elim N1. rewrite E. now apply in_map.
  - elim N1. rewrite <- E. now apply in_map.
Qed.

(** What a call does to the ids. *)
Definition grows (l l' : list item) : Prop := exists new, l' = l ++ new /\ Forall (fun x => has_id (it_id x) l = false) new.
Lemma grows_refl l : grows l l.
Proof. exists []. rewrite app_nil_r. auto. Qed.
Lemma grows_one l x : has_id (it_id x) l = false -> grows l (l ++ [x]).
Proof. intros H. exists [x]. auto. Qed.
Lemma grows_trans l l1 l2 : grows l l1 -> grows l1 l2 -> grows l l2.
Proof.
  intros (n1 & -> & F1) (n2 & -> & F2). exists (n1 ++ n2). rewrite app_assoc. split; [reflexivity|].
  apply Forall_app. split; [exact F1|]. eapply Forall_impl; [|exact F2]. intros x. cbn. rewrite has_app. now destruct (has_id _ l).
Qed.
Lemma insert_grows l it al r l' : spec_insert l it al = Some (r, l') -> grows l l'.
Proof.
  unfold spec_insert. destruct (has_id (it_id it) l) eqn:E; [intros [= <- <-]; apply grows_refl|].
  destruct (negb _); [intros [= <- <-]; apply grows_refl|]. destruct (al_push al); [intros [= <- <-]; now apply grows_one|discriminate].
Qed.
Lemma try_insert_grows l it al r l' : spec_try_insert l it al = Some (r, l') -> grows l l'.
Proof.
  unfold spec_try_insert. destruct (negb (al_item al)); [intros [= <- <-]; apply grows_refl|].
  destruct (has_id (it_id it) l) eqn:E; [intros [= <- <-]; apply grows_refl|].
  destruct (negb _); [intros [= <- <-]; apply grows_refl|]. destruct (al_push al); [intros [= <- <-]; now apply grows_one|discriminate].
Qed.
Lemma insert_each_grows xs : forall l r l', spec_insert_each l xs = Some (r, l') -> grows l l'.
Proof.
  induction xs as [|[it al] xs IH]; cbn [spec_insert_each]; intros l r l' E; [injection E as <- <-; apply grows_refl|].
  destruct (spec_insert l it al) as [[r1 l1]|] eqn:F; [|discriminate]. apply insert_grows in F.
  destruct r1; try (injection E as <- <-; exact F). eapply grows_trans; eauto.
Qed.
Lemma try_insert_each_grows xs : forall l r l', spec_try_insert_each l xs = Some (r, l') -> grows l l'.
Proof.
  induction xs as [|[it al] xs IH]; cbn [spec_try_insert_each]; intros l r l' E; [injection E as <- <-; apply grows_refl|].
  destruct (spec_try_insert l it al) as [[r1 l1]|] eqn:F; [|discriminate]. apply try_insert_grows in F.
  destruct r1; try discriminate; [|injection E as <- <-; exact F].
  destruct (spec_try_insert_each l1 xs) as [[rs l2]|] eqn:G; [|discriminate]. injection E as <- <-. eapply grows_trans; eauto.
Qed.
Lemma ids_without id l : ids (without id l) = filter (fun i => negb (i =? id)) (ids l).
Proof. unfold ids, without. induction l as [|x l IH]; [reflexivity|]. cbn. destruct (negb _); cbn; now rewrite IH. Qed.
Lemma erase_each_ids xs : forall l, exists f, ids (snd (spec_erase_each l xs)) = filter f (ids l).
Proof.
  induction xs as [|id xs IH]; intros l; cbn [spec_erase_each].
  - exists (fun _ => true). cbn [snd]. induction (ids l) as [|x r R]; [reflexivity|]. cbn. now rewrite <- R.
  - destruct (IH (without id l)) as (f & F). destruct (spec_erase_each (without id l) xs) as [rs l']. cbn [snd] in *.
    rewrite F, ids_without. exists (fun i => negb (i =? id) && f i). clear. induction (ids l) as [|x r R]; [reflexivity|].
    cbn. destruct (negb (x =? id)); cbn; [destruct (f x)|]; now rewrite R.
Qed.
Lemma filter_all {A} (l : list A) : filter (fun _ => true) l = l.
Proof. induction l as [|x l IH]; [reflexivity|]. cbn. now rewrite IH. Qed.
Lemma call_shape o l x l' : spec_step o l = Some (x, l') -> grows l l' \/ exists f, ids l' = filter f (ids l).
Proof.
  assert (Same : forall l, exists f, ids l = filter f (ids l)) by (intros; exists (fun _ => true); now rewrite filter_all).
  intros E. destruct o; cbn [spec_step] in E; try (injection E as <- <-; right; now auto).
  - left. destruct (spec_insert l it al) as [[r m]|] eqn:F; [|discriminate]. injection E as <- <-. eapply insert_grows; eauto.
  - left. destruct (spec_try_insert l it al) as [[r m]|] eqn:F; [|discriminate]. injection E as <- <-. eapply try_insert_grows; eauto.
  - left. destruct (spec_try_insert_each l l0) as [[r m]|] eqn:F; [|discriminate]. injection E as <- <-. eapply try_insert_each_grows; eauto.
  - left. destruct (spec_insert_each l l0) as [[r m]|] eqn:F; [|discriminate]. injection E as <- <-. eapply insert_each_grows; eauto.
  - left. destruct (spec_try_insert_each l l0) as [[r m]|] eqn:F; [|discriminate]. injection E as <- <-. eapply try_insert_each_grows; eauto.
  - injection E as <- <-. right. rewrite ids_without. eauto.
  - right. destruct (erase_each_ids ids0 l) as (f & F). destruct (spec_erase_each l ids0) as [rs m]. injection E as <- <-. eauto.
  - left. destruct (spec_try_insert l it al) as [[r m]|] eqn:F; [|discriminate]. apply try_insert_grows in F.
    destruct r as [[]| | | |]; try discriminate; injection E as <- <-; exact F.
  - destruct (has_id id l && (it_id it =? id)) eqn:C; [|discriminate]. injection E as <- <-. right.
    exists (fun _ => true). rewrite filter_all. unfold ids. rewrite map_map. apply map_ext. intros y.
    apply andb_prop in C as [_ C]. apply N.eqb_eq in C. destruct (it_id y =? id) eqn:D; [|reflexivity]. apply N.eqb_eq in D. congruence.
  - injection E as <- <-. right. rewrite ids_without. eauto.
  - injection E as <- <-. right. exists (fun _ => false). cbn. now induction (ids l).
Qed.

Lemma has_ids id l : has_id id l = true <-> In id (ids l).
Proof. apply has_id_In. Qed.
Lemma added_new l new : Forall (fun x => has_id (it_id x) l = false) new -> added l (l ++ new) = match new with [] => false | _ => true end.
Proof.
  intros F. unfold added. rewrite existsb_app.
  assert (E : existsb (fun x => negb (has_id (it_id x) l)) l = false).
  { apply Bool.not_true_is_false. intros C. apply existsb_exists in C as (x & I & C). apply Bool.negb_true_iff in C.
    assert (has_id (it_id x) l = true) by (apply has_ids, in_map; exact I). congruence. }
  rewrite E. destruct new as [|y new]; [reflexivity|]. inversion F as [|? ? H _]; subst. cbn. now rewrite H.
Qed.
Lemma removed_not l new : removed l (l ++ new) = false.
Proof.
  unfold removed. apply Bool.not_true_is_false. intros C. apply existsb_exists in C as (x & I & C). apply Bool.negb_true_iff in C.
  rewrite has_app in C. assert (has_id (it_id x) l = true) by (apply has_ids, in_map; exact I). now rewrite H in C.
Qed.
Lemma added_not l l' f : ids l' = filter f (ids l) -> added l l' = false.
Proof.
  intros F. unfold added. apply Bool.not_true_is_false. intros C. apply existsb_exists in C as (x & I & C). apply Bool.negb_true_iff in C.
  apply (in_map it_id) in I. change (In (it_id x) (ids l')) in I. rewrite F in I. apply filter_In in I as [I _]. apply has_ids in I. congruence.
Qed.
Lemma has_filter l l' f id : ids l' = filter f (ids l) -> In id (ids l) -> has_id id l' = f id.
Proof.
  intros F I. destruct (f id) eqn:E.
  - apply has_ids. rewrite F. apply filter_In. auto.
  - apply Bool.not_true_is_false. intros C. apply has_ids in C. rewrite F in C. apply filter_In in C as [_ C]. congruence.
Qed.
Lemma filter_len {A} (f : A -> bool) xs : (length (filter f xs) <= length xs)%nat.
Proof. induction xs as [|x xs IH]; [auto|]. cbn. destruct (f x); cbn; lia. Qed.
Lemma filter_same {A} (f : A -> bool) xs : length (filter f xs) = length xs -> forallb f xs = true.
Proof.
  induction xs as [|x xs IH]; [reflexivity|]. cbn. pose proof (filter_len f xs). destruct (f x); cbn; intros E; [apply IH|]; lia.
Qed.
Lemma forallb_filter {A} (f : A -> bool) xs : forallb f xs = true -> filter f xs = xs.
Proof. induction xs as [|x xs IH]; [reflexivity|]. cbn. destruct (f x); cbn; [|discriminate]. intros E. now rewrite IH. Qed.
Lemma removed_filter l l' f : ids l' = filter f (ids l) -> removed l l' = negb (forallb f (ids l)).
Proof.
  intros F. unfold removed.
  assert (G : forall xs, (forall i, In i (ids xs) -> has_id i l' = f i) -> existsb (fun x => negb (has_id (it_id x) l')) xs = negb (forallb f (ids xs))).
  { induction xs as [|x xs IH]; intros H; [reflexivity|]. cbn. rewrite IH by (intros; apply H; now right).
    rewrite (H (it_id x)) by now left. destruct (f (it_id x)); reflexivity. }
  apply G. intros i I. eapply has_filter; eauto.
Qed.

(** The first difference of a list and what a filter leaves of it. *)
Lemma same_start_filter (g g' : N -> N) f : forall xs, NoDup xs -> (forall x y, In x xs -> In y xs -> g x = g y -> x = y) ->
  (forall x, In x xs -> f x = true -> g' x = g x) -> forallb f xs = false ->
  forall p, (p <? Z.of_N (same_start (map g xs) (map g' (filter f xs))))%Z = true <-> (p < 0)%Z \/ (Z.to_nat p < length xs)%nat /\ forallb f (firstn (S (Z.to_nat p)) xs) = true.
Proof.
  induction xs as [|x xs IH]; intros ND Inj K NA p; [discriminate|]. inversion ND as [|? ? N1 N2]; subst.
  cbn [forallb] in NA. cbn [filter map]. destruct (f x) eqn:Fx.
  - cbn [map same_start andb] in *. rewrite (K x) by (auto; now left). rewrite N.eqb_refl.
    assert (R : (p <? Z.of_N (1 + same_start (map g xs) (map g' (filter f xs))))%Z = true <-> (p < 0)%Z \/ p = 0%Z \/ (0 < p /\ (p - 1 <? Z.of_N (same_start (map g xs) (map g' (filter f xs)))) = true)%Z) by lia.
    rewrite R, IH; auto.
    + destruct (Z.ltb_spec p 0); [lia|]. destruct (Z.eqb_spec p 0) as [->|].
      * cbn [firstn forallb Z.to_nat]. rewrite Fx. cbn. split; [intros _; right; split; [lia|reflexivity]|lia].
      * replace (Z.to_nat p) with (S (Z.to_nat (p - 1))) by lia. cbn [length]. rewrite (firstn_cons (S _)). cbn [forallb]. rewrite Fx. cbn [andb].
        split; [intros [?|[?|[? [?|[A B]]]]]; try lia; right; split; [lia|exact B]|intros [?|[A B]]; [lia|]].
        right. right. split; [lia|]. right. split; [lia|exact B].
    + intros; apply Inj; auto; now right.
    + intros; apply K; auto; now right.
  - assert (E : same_start (g x :: map g xs) (map g' (filter f xs)) = 0).
    { destruct (filter f xs) as [|y r] eqn:Fl; [reflexivity|]. cbn [map same_start].
      assert (I : In y (filter f xs)) by (rewrite Fl; now left). apply filter_In in I as [I Fy].
      destruct (g x =? g' y) eqn:E; [|reflexivity]. apply N.eqb_eq in E. rewrite (K y) in E by (auto; now right).
      elim N1. rewrite (Inj x y); auto; [now left|now right]. }
    rewrite E. cbn [firstn forallb]. rewrite Fx. cbn. split; [lia|]. intros [?|[_ ?]]; [lia|discriminate].
Qed.

Lemma gone o l x l' i : spec_step o l = Some (x, l') -> removes i o -> has_id i l' = true -> False.
Proof.
  assert (W : forall j m, has_id j (without j m) = true -> False).
  { intros j m H. apply has_ids in H. rewrite ids_without in H. apply filter_In in H as [_ H]. now rewrite N.eqb_refl in H. }
  intros S R I. destruct o; cbn [removes spec_step] in R, S; try contradiction.
  - subst. injection S as <- <-. now apply W in I.
  - revert l x l' R S I. induction ids0 as [|j js IH]; intros l x l' R S I; [contradiction|]. cbn [spec_erase_each] in S.
    destruct (erase_each_ids js (without j l)) as (f & F). destruct (spec_erase_each (without j l) js) as [rs m] eqn:Em.
    injection S as <- <-. cbn [snd] in F. destruct R as [->|R].
    + apply has_ids in I. rewrite F, ids_without in I. apply filter_In in I as [I _]. apply filter_In in I as [_ I]. now rewrite N.eqb_refl in I.
    + eapply (IH (without j l)); eauto. now rewrite Em.
  - subst. injection S as <- <-. now apply W in I.
  - injection S as <- <-. discriminate.
Qed.
Lemma forallb_same {A} (f : A -> bool) {B} (g : B -> bool) (h : A -> B) xs : (forall x, In x xs -> f x = g (h x)) -> forallb f xs = forallb g (map h xs).
Proof. induction xs as [|x xs IH]; intros H; [reflexivity|]. cbn. rewrite IH by (intros; apply H; now right). now rewrite (H x) by now left. Qed.
Lemma In_firstn {A} n (xs : list A) x : In x (firstn n xs) -> In x xs.
Proof. revert xs. induction n as [|n IH]; intros [|y xs]; cbn; try tauto. intros [->|H]; auto. Qed.
Lemma Z_N_nat_id p : Z.to_nat (Z.of_N p) = N.to_nat p.
Proof. lia. Qed.

Notation flag := SvIter_Proofs.flag.
Section Kept.
Variable b : build.

(** The two notions of an iterator that may be used agree. *)
Lemma usable_stays c l o x l' c' moved p : RI c l -> spec_step o l = Some (x, l') -> ic_step b o c = (x, c') -> RI c' l' ->
  stays (c_order c) (c_order c') moved (Z.of_N p) = usable l l' moved p.
Proof.
  intros H Sp C H'. destruct (size_spec _ _ H) as [_ L]. destruct (size_spec _ _ H') as [_ L'].
  unfold stays, usable. rewrite L, L'. destruct (call_shape o l x l' Sp) as [(new & -> & F)|(f & F)].
  - rewrite added_new by exact F. rewrite removed_not. rewrite lenN_app. destruct new as [|y new].
    + replace (lenN l <? lenN l + lenN []) with false by (symmetry; apply N.ltb_ge; cbn; lia).
      replace (lenN l + lenN [] <? lenN l) with false by (symmetry; apply N.ltb_ge; cbn; lia). reflexivity.
    + replace (lenN l <? lenN l + lenN (y :: new)) with true by (symmetry; apply N.ltb_lt; unfold lenN; cbn; lia).
      f_equal. lia.
  - rewrite (added_not _ _ _ F). assert (LL : length l' = length (filter f (ids l))) by (rewrite <- F; unfold ids; now rewrite map_length).
    pose proof (filter_len f (ids l)) as FL. assert (LI : length (ids l) = length l) by (unfold ids; now rewrite map_length).
    replace (lenN l <? lenN l') with false by (symmetry; apply N.ltb_ge; unfold lenN; lia).
    rewrite (removed_filter _ _ _ F). destruct (forallb f (ids l)) eqn:A; cbn [negb].
    + rewrite (forallb_filter _ _ A) in LL. replace (lenN l' <? lenN l) with false by (symmetry; apply N.ltb_ge; unfold lenN; lia). reflexivity.
    + assert (NE : length l' <> length l) by (intros E; rewrite (filter_same f (ids l)) in A; [discriminate|lia]).
      replace (lenN l' <? lenN l) with true by (symmetry; apply N.ltb_lt; unfold lenN; lia).
      rewrite (order_map _ _ H), (order_map _ _ H'), F.
      pose proof (same_start_filter (addr c) (addr c') f (ids l)) as Q.
      assert (Q' := Q (ri_ids _ _ H)). clear Q. specialize (Q' (fun i j => addr_inj c l i j H)).
      assert (Keep : forall i, In i (ids l) -> f i = true -> addr c' i = addr c i).
      { intros i I Fi. pose proof (ev_step b o c) as (_ & _ & EV). rewrite C in EV. cbn [snd] in EV. unfold addr.
        assert (I' : has_id i l' = true) by (rewrite (has_filter l l' f i F I); exact Fi).
        assert (Hi : has_id i l = true) by now apply has_ids.
        rewrite <- (contains_spec _ _ i H) in Hi. unfold ic_contains in Hi. destruct (lookup i (c_items c)) as [a|] eqn:E; [|discriminate].
        assert (NR : ~ removes i o).
        { intros R. eapply gone; eauto. }
        now rewrite (EV i a NR E). }
      specialize (Q' Keep A (Z.of_N p)).
      assert (G : forallb (fun x => has_id (it_id x) l') (firstn (S (N.to_nat p)) l) = forallb f (firstn (S (N.to_nat p)) (ids l))).
      { unfold ids. rewrite firstn_map. apply forallb_same. intros y I. apply (has_filter l l' f _ F).
        unfold ids. apply in_map. eapply In_firstn; eauto. }
      rewrite G. apply Bool.eq_iff_eq_true. rewrite Q', Z_N_nat_id, Bool.andb_true_iff, N.ltb_lt.
      unfold lenN. split; [intros [?|[? ?]]; [lia|split; [lia|assumption]]|intros [? ?]; right; split; [lia|assumption]].
Qed.

Lemma flag_t : flag b true = true.
Proof. exact (SvIter_Proofs.flag_true b). Qed.
Definition same_spot (d : option diter) (a : option spot) : Prop :=
  d = match a with Some a => Some (mk_diter (Z.of_N (spot_at a)) 0 0 (Z.of_N (spot_size a))) | None => None end.
Definition KR (s : kept) (t : spots) : Prop := RI (kp_coll s) (fst t) /\ forall k, same_spot (kp_its s k) (snd t k).
Lemma KR_set s t k d a : KR s t -> same_spot (Some d) (Some a) -> KR (k_set s k d) (put t k a).
Proof. intros [A B] C. split; [exact A|]. cbn [kp_its snd put k_set]. intros m. destruct (m =? k); auto. Qed.
Lemma KR_start : KR k_start nothing.
Proof. split; [exact RI_empty|]. intros k. reflexivity. Qed.

Lemma move_ok s t k l a off (f : diter -> outcome diter) (bad : bool) : KR s t -> snd t k = Some a ->
  ((0 <=? Z.of_N (spot_at a) + off) && (Z.of_N (spot_at a) + off <=? Z.of_N (lenN (fst t))))%Z = true ->
  f (mk_diter (Z.of_N (spot_at a)) 0 0 (Z.of_N (spot_size a))) =
    (if flag b (negb bad) then di_move (ic_raw (kp_coll s)) (mk_diter (Z.of_N (spot_at a)) 0 0 (Z.of_N (spot_size a))) (Z.of_N (spot_at a) + off) else failure b) ->
  exists s', k_move s l (k_use s k f) = (KMoved (if flag b (negb bad) then Ok tt else failure b), s') /\
    KR s' (if flag b (negb bad) then put t l (mk_spot (Z.to_N (Z.of_N (spot_at a) + off)) (spot_size a)) else t).
Proof.
  intros H K L F. pose proof (proj2 H k) as D. rewrite K in D. unfold same_spot in D. unfold k_use. rewrite D, F.
  destruct (flag b (negb bad)).
  - apply andb_prop in L as [L1 L2]. unfold di_move. rewrite (raw_ok _ _ (proj1 H)). unfold lenN in *. rewrite map_length.
    rewrite L1, L2. cbn [andb k_move]. eexists. split; [reflexivity|]. apply KR_set; [exact H|].
    unfold same_spot. cbn [spot_at spot_size di_parent di_begin di_end]. now rewrite Z2N.id by lia.
  - exists s. split; [destruct b; reflexivity|exact H].
Qed.

Lemma k_step_ok o s t x t' : KR s t -> spot_build_step b o t = Some (x, t') -> exists s', k_step b o s = (x, s') /\ KR s' t'.
Proof.
  intros H E. unfold spot_build_step in E. destruct (spot_step o t) as [[y u]|] eqn:S; [|discriminate].
  assert (B : (x, t') = if flag b (negb (k_reported o t)) then (y, u) else (KMoved (failure b), t)).
  { unfold flag. destruct b; [|destruct (k_reported o t)..]; cbn [negb]; congruence. }
  clear E. destruct H as [HI HK].
  destruct o; cbn [spot_step k_reported] in S, B.
  - destruct (spec_step o (fst t)) as [[z l']|] eqn:Q; [|discriminate]. injection S as <- <-. cbn [negb] in B. rewrite flag_t in B. injection B as -> ->.
    destruct (ic_step_ok b o _ _ _ _ HI Q) as (c' & C & RI'). cbn [k_step]. rewrite C. eexists. split; [reflexivity|].
    split; [exact RI'|]. intros k. cbn [kp_its snd]. specialize (HK k). unfold same_spot in *. rewrite HK.
    destruct (snd t k) as [a|]; [|reflexivity]. cbn [di_ptr]. rewrite (usable_stays _ _ _ _ _ _ moved (spot_at a) HI Q C RI').
    destruct (usable _ _ _ _); reflexivity.
  - injection S as <- <-. cbn [negb] in B. rewrite flag_t in B. injection B as -> ->. cbn [k_step]. eexists. split; [reflexivity|].
    apply KR_set; [split; assumption|]. unfold k_begin, di_begin_of, same_spot. now rewrite (proj2 (size_spec _ _ HI)).
  - injection S as <- <-. cbn [negb] in B. rewrite flag_t in B. injection B as -> ->. cbn [k_step]. eexists. split; [reflexivity|].
    apply KR_set; [split; assumption|]. unfold k_end, di_end_of, same_spot. now rewrite (proj2 (size_spec _ _ HI)).
  - unfold move_by in S. destruct (snd t k) as [a|] eqn:K; [|discriminate]. destruct (_ && _)%bool eqn:L in S; [|discriminate]. injection S as <- <-.
    cbn [k_step]. destruct (move_ok s t k k a 1 (di_inc b (ic_raw (kp_coll s))) (spot_at a =? spot_size a) (conj HI HK) K L) as (s' & M & G).
    { exact (SvIter_Proofs.inc_move b 0 eq_refl _ (SvIter_Spec.mk_place 0 (spot_at a) (spot_size a))). }
    rewrite M. exists s'. destruct (flag b _); injection B as -> ->; split; auto.
  - unfold move_by in S. destruct (snd t k) as [a|] eqn:K; [|discriminate]. destruct (_ && _)%bool eqn:L in S; [|discriminate]. injection S as <- <-.
    cbn [k_step]. destruct (move_ok s t k k a (-1) (di_dec b (ic_raw (kp_coll s))) false (conj HI HK) K L) as (s' & M & G).
    { cbn [negb]. rewrite flag_t. apply (SvIter_Proofs.dec_move b 0 eq_refl _ (SvIter_Spec.mk_place 0 (spot_at a) (spot_size a))). cbn. lia. }
    rewrite M. exists s'. destruct (flag b _); injection B as -> ->; split; auto.
  - unfold move_by in S. destruct (snd t k) as [a|] eqn:K; [|discriminate]. destruct (_ && _)%bool eqn:L in S; [|discriminate]. injection S as <- <-.
    cbn [k_step]. destruct (move_ok s t k l a off (fun it => di_add b (ic_raw (kp_coll s)) it off) (Z.of_N (spot_size a) <=? Z.of_N (spot_at a) + off)%Z (conj HI HK) K L) as (s' & M & G).
    { apply (SvIter_Proofs.jump_move b 0 eq_refl _ (SvIter_Spec.mk_place 0 (spot_at a) (spot_size a)) off di_add off); [left; auto|cbn; lia]. }
    rewrite M. exists s'. destruct (flag b _); injection B as -> ->; split; auto.
  - destruct (snd t k) as [a|] eqn:K; [|discriminate]. destruct (nth_error (fst t) _) as [v|] eqn:V; [|discriminate]. injection S as <- <-.
    cbn [negb] in B. rewrite flag_t in B. injection B as -> ->. cbn [k_step]. exists s. split; [|split; assumption].
    specialize (HK k). rewrite K in HK. unfold k_use. rewrite HK. unfold di_deref, raw_at. cbn [di_ptr].
    rewrite (proj2 (Z.ltb_ge _ _)) by lia. rewrite (raw_ok _ _ HI), nth_error_map, Z_N_nat_id, V. reflexivity.
  - unfold both in S. destruct (snd t k) as [a|] eqn:K; [|discriminate]. destruct (snd t l) as [d|] eqn:K2; [|discriminate]. injection S as <- <-.
    cbn [negb] in B. rewrite flag_t in B. injection B as -> ->. cbn [k_step]. exists s. split; [|split; assumption].
    pose proof (HK k) as H1. pose proof (HK l) as H2. rewrite K in H1. rewrite K2 in H2. unfold k_use2, k_use. rewrite H1, H2.
    unfold di_diff. cbn [di_ptr di_parent]. rewrite SvIter_Proofs.dassert_flag, N.eqb_refl, flag_t. reflexivity.
  - unfold both in S. destruct (snd t k) as [a|] eqn:K; [|discriminate]. destruct (snd t l) as [d|] eqn:K2; [|discriminate]. injection S as <- <-.
    cbn [negb] in B. rewrite flag_t in B. injection B as -> ->. cbn [k_step]. exists s. split; [|split; assumption].
    pose proof (HK k) as H1. pose proof (HK l) as H2. rewrite K in H1. rewrite K2 in H2. unfold k_use2, k_use. rewrite H1, H2.
    unfold di_cmp. cbn [di_ptr di_parent]. rewrite SvIter_Proofs.dassert_flag, N.eqb_refl, flag_t. now rewrite N2Z.inj_compare.
  - unfold both in S. destruct (snd t k) as [a|] eqn:K; [|discriminate]. destruct (snd t l) as [d|] eqn:K2; [|discriminate]. injection S as <- <-.
    cbn [negb] in B. rewrite flag_t in B. injection B as -> ->. cbn [k_step]. exists s. split; [|split; assumption].
    pose proof (HK k) as H1. pose proof (HK l) as H2. rewrite K in H1. rewrite K2 in H2. unfold k_use2, k_use. rewrite H1, H2.
    unfold di_eq. cbn [di_ptr]. do 3 f_equal. lia.
Qed.
Lemma k_run_ok ops : forall s t xs t', KR s t -> spot_run b ops t = Some (xs, t') -> exists s', k_run b ops s = (xs, s') /\ KR s' t'.
Proof.
  induction ops as [|o ops IH]; intros s t xs t' H E; cbn [spot_run k_run] in *; [injection E as <- <-; eauto|].
  destruct (spot_build_step b o t) as [[x t1]|] eqn:S; [|discriminate]. destruct (spot_run b ops t1) as [[ys t2]|] eqn:R; [|discriminate].
  injection E as <- <-. destruct (k_step_ok o s t x t1 H S) as (s1 & K & H1). rewrite K. destruct (IH s1 t1 ys t2 H1 R) as (s2 & K2 & H2). rewrite K2. eauto.
Qed.
Lemma builds ops xs t : spot_run b ops nothing = Some (xs, t) ->
  exists s, k_run b ops k_start = (xs, s) /\ ic_iterate b (kp_coll s) = Ok (fst t) /\ ic_size (kp_coll s) = lenN (fst t).
Proof.
  intros E. destruct (k_run_ok ops _ _ _ _ KR_start E) as (s & K & H & _). exists s. split; [exact K|].
  split; [apply iterate_ok|apply size_spec]; assumption.
Qed.

Lemma filter_nth {A} (f : A -> bool) : forall n (xs : list A), forallb f (firstn (S n) xs) = true -> nth_error (filter f xs) n = nth_error xs n.
Proof.
  induction n as [|n IH]; intros [|x xs] H; try reflexivity.
  - cbn [firstn forallb] in H. cbn [filter]. destruct (f x); [reflexivity|discriminate].
  - rewrite firstn_cons in H. cbn [forallb] in H. cbn [filter]. destruct (f x); [|discriminate]. cbn [nth_error]. now apply IH.
Qed.
Lemma usable_same o l x l' moved p y : spec_step o l = Some (x, l') -> usable l l' moved p = true -> nth_error l (N.to_nat p) = Some y ->
  exists z, nth_error l' (N.to_nat p) = Some z /\ it_id z = it_id y.
Proof.
  intros Sp U Y. assert (L : (N.to_nat p < length l)%nat) by (apply nth_error_Some; congruence).
  destruct (call_shape o l x l' Sp) as [(new & -> & _)|(f & F)].
  - exists y. split; [|reflexivity]. rewrite nth_error_app1; auto.
  - assert (Fa : forallb f (firstn (S (N.to_nat p)) (ids l)) = true).
    { unfold usable in U. rewrite (added_not _ _ _ F), (removed_filter _ _ _ F) in U. destruct (forallb f (ids l)) eqn:A; cbn [negb] in U.
      - rewrite forallb_forall in *. intros i I. apply A. eapply In_firstn; eauto.
      - apply andb_prop in U as [_ U]. rewrite <- U. unfold ids. rewrite firstn_map. symmetry. apply forallb_same. intros z I.
        apply (has_filter l l' f _ F). unfold ids. apply in_map. eapply In_firstn; eauto. }
    apply filter_nth in Fa. rewrite <- F in Fa. unfold ids in Fa. rewrite !nth_error_map, Y in Fa. cbn in Fa.
    destruct (nth_error l' (N.to_nat p)) as [z|]; [|discriminate]. exists z. split; [reflexivity|]. now injection Fa.
Qed.
Lemma spot_app xs : forall ys s, spot_run b (xs ++ ys) s = match spot_run b xs s with Some (r, s1) => match spot_run b ys s1 with Some (q, s2) => Some (r ++ q, s2) | None => None end | None => None end.
Proof.
  induction xs as [|o xs IH]; intros ys s; cbn [app spot_run].
  - destruct (spot_run b ys s) as [[? ?]|]; reflexivity.
  - destruct (spot_build_step b o s) as [[x s1]|]; [|reflexivity]. rewrite IH. destruct (spot_run b xs s1) as [[r s2]|]; [|reflexivity].
    destruct (spot_run b ys s2) as [[? ?]|]; reflexivity.
Qed.
Lemma k_app xs : forall ys s, k_run b (xs ++ ys) s = let '(r, s1) := k_run b xs s in let '(q, s2) := k_run b ys s1 in (r ++ q, s2).
Proof.
  induction xs as [|o xs IH]; intros ys s; cbn [app k_run].
  - destruct (k_run b ys s); reflexivity.
  - destruct (k_step b o s) as [x s1]. rewrite IH. destruct (k_run b xs s1) as [r s2]. destruct (k_run b ys s2); reflexivity.
Qed.
Lemma calls_same cs : forall t xs t' k a y, spot_run b (calls cs) t = Some (xs, t') -> snd t k = Some a -> nth_error (fst t) (N.to_nat (spot_at a)) = Some y ->
  snd t' k <> None -> snd t' k = Some a /\ exists z, nth_error (fst t') (N.to_nat (spot_at a)) = Some z /\ it_id z = it_id y.
Proof.
  induction cs as [|[o m] cs IH]; intros t xs t' k a y E K Y NN; cbn [calls map spot_run fst snd] in E.
  - injection E as <- <-. eauto.
  - destruct (spot_build_step b (KCall o m) t) as [[x t1]|] eqn:S; [|discriminate]. fold (calls cs) in E.
    destruct (spot_run b (calls cs) t1) as [[ys t2]|] eqn:R; [|discriminate]. injection E as <- <-.
    unfold spot_build_step in S. cbn [k_reported] in S.
    destruct (spot_step (KCall o m) t) as [[u v]|] eqn:W; [|discriminate].
    assert (S' : Some (u, v) = Some (x, t1)) by (destruct b; exact S). injection S' as -> ->. clear S.
    cbn [spot_step] in W. destruct (spec_step o (fst t)) as [[z l']|] eqn:Q; [|discriminate]. injection W as <- <-.
    destruct (usable (fst t) l' m (spot_at a)) eqn:U.
    + destruct (usable_same o _ _ _ m _ y Q U Y) as (y' & Y' & I). rewrite <- I.
      apply (IH _ _ _ k a y' R); cbn [snd fst]; auto. rewrite K, U. reflexivity.
    + elim NN. clear - R K U. assert (Z : forall cs t xs t', spot_run b (calls cs) t = Some (xs, t') -> snd t k = None -> snd t' k = None).
      { clear. induction cs as [|[o m] cs IH]; intros t xs t' E N; cbn [calls map spot_run fst snd] in E; [injection E as <- <-; exact N|].
        fold (calls cs) in E. destruct (spot_build_step b (KCall o m) t) as [[x t1]|] eqn:S; [|discriminate].
        destruct (spot_run b (calls cs) t1) as [[ys t2]|] eqn:R; [|discriminate]. injection E as <- <-. apply (IH _ _ _ R).
        unfold spot_build_step in S. cbn [k_reported] in S. destruct (spot_step (KCall o m) t) as [[u v]|] eqn:W; [|discriminate].
        assert (S' : Some (u, v) = Some (x, t1)) by (destruct b; exact S). injection S' as -> ->.
        cbn [spot_step] in W. destruct (spec_step o (fst t)) as [[z l']|]; [|discriminate]. injection W as <- <-. cbn [snd]. now rewrite N. }
      apply (Z _ _ _ _ R). cbn [snd]. now rewrite K, U.
Qed.
Lemma same_item ops cs k y xs t : spot_run b (ops ++ KRead k :: calls cs) nothing = Some (xs, t) ->
  nth_error xs (length ops) = Some (KItem (Ok y)) -> snd t k <> None ->
  exists z s, k_run b (ops ++ KRead k :: calls cs ++ [KRead k]) k_start = (xs ++ [KItem (Ok z)], s) /\
    it_id z = it_id y /\ ic_at_id (kp_coll s) (it_id y) = Ok z.
Proof.
  intros E Y NN. assert (E0 := E). rewrite spot_app in E. destruct (spot_run b ops nothing) as [[r t1]|] eqn:E1; [|discriminate].
  assert (Lr : length r = length ops).
  { clear - E1. revert r t1 E1. generalize nothing. induction ops as [|o ops IH]; intros s r t1 E; cbn [spot_run] in E; [now injection E as <- <-|].
    destruct (spot_build_step b o s) as [[x s1]|]; [|discriminate]. destruct (spot_run b ops s1) as [[q s2]|] eqn:F; [|discriminate].
    injection E as <- <-. cbn. f_equal. eapply IH; eauto. }
  cbn [spot_run] in E. destruct (spot_build_step b (KRead k) t1) as [[x t2]|] eqn:S; [|discriminate].
  destruct (spot_run b (calls cs) t2) as [[q t3]|] eqn:R; [|discriminate]. injection E as <- <-.
  rewrite nth_error_app2, Lr, Nat.sub_diag in Y by lia. cbn in Y. injection Y as ->.
  unfold spot_build_step in S. destruct (spot_step (KRead k) t1) as [[u v]|] eqn:W; [|discriminate].
  assert (S' : Some (u, v) = Some (KItem (Ok y), t2)) by (destruct b; exact S). injection S' as -> ->. clear S.
  cbn [spot_step] in W. destruct (snd t1 k) as [a|] eqn:K; [|discriminate]. destruct (nth_error (fst t1) (N.to_nat (spot_at a))) as [y'|] eqn:Y; [|discriminate].
  injection W as -> ->. destruct (calls_same cs _ _ _ _ _ _ R K Y NN) as (K' & z & Z & I).
  destruct (k_run_ok (ops ++ KRead k :: calls cs) _ _ _ _ KR_start E0) as (s & X & H).
  assert (B : spot_build_step b (KRead k) t3 = Some (KItem (Ok z), t3)).
  { unfold spot_build_step. cbn [spot_step k_reported]. rewrite K', Z. now destruct b. }
  destruct (k_step_ok _ _ _ _ _ H B) as (s' & X' & H').
  exists z, s'. split; [|split; [exact I|]].
  - change (ops ++ KRead k :: calls cs ++ [KRead k]) with (ops ++ (KRead k :: calls cs) ++ [KRead k]). rewrite app_assoc, k_app, X. cbn [k_run]. now rewrite X'.
  - rewrite (at_id_ok _ _ _ (proj1 H')). rewrite <- I. unfold found.
    assert (W : item_with (it_id z) (fst t3) = Some z); [|now rewrite W].
    pose proof (ri_ids _ _ (proj1 H')) as ND. apply nth_error_In in Z. clear - ND Z. induction (fst t3) as [|w l IH]; [contradiction|].
    cbn [map] in ND. inversion ND as [|? ? N1 N2]; subst. cbn. destruct (N.eqb_spec (it_id w) (it_id z)) as [E|E].
    + destruct Z as [->|Z]; [reflexivity|]. elim N1. rewrite E. now apply in_map.
    + destruct Z as [->|Z]; [congruence|]. now apply IH.
Qed.
End Kept.

Definition k_item (id : N) : item := mk_item id 0.
Definition k_ins (id : N) (moved : bool) : kop := KCall (IInsert (k_item id) all_ok) moved.
Lemma refuted b :
  let last_of ops := last (fst (k_run b ops k_start)) (KBool Diverge) in
  let three := [k_ins 1 true; k_ins 2 true; k_ins 3 true] in
  last_of (three ++ [KBegin 0; k_ins 4 true; KRead 0]) = KItem UB /\
  last_of (three ++ [KBegin 0; KEnd 1; k_ins 4 false; KSame 0 1]) = KBool UB /\
  last_of (three ++ [KBegin 0; KEnd 1; KCall (IErase 3) false; KSame 0 1]) = KBool UB /\
  last_of (three ++ [KBegin 0; KInc 0; KCall (IErase 2) false; KInc 0]) = KMoved UB /\
  last_of (three ++ [KBegin 0; KInc 0; KCall (IErase 1) false; KRead 0]) = KItem UB.
Proof. destruct b; vm_compute; auto. Qed.
Lemma debug_refuted b : b <> Release ->
  let ops := [k_ins 1 true; KBegin 0; k_ins 2 false; KInc 0; KInc 0] in
  (exists xs t, spot_run Release ops nothing = Some (xs, t) /\ last xs (KBool UB) = KMoved (Ok tt)) /\
  last (fst (k_run b ops k_start)) (KBool UB) = KMoved (failure b).
Proof. intros N. destruct b; [congruence|..]; (split; [eexists _, _; vm_compute; auto|reflexivity]). Qed.
