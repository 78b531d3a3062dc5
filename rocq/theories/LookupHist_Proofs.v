(** Proofs about histories of a lookup table. *)
From Coq Require Import List Lia. Import ListNotations.
From Verif Require Import Base BaseFacts Lookup_Model Coll_Spec Coll_PropLemmas ListText_Spec LookupHist_Spec.

Section P.
Context {K V : Type} (keq : K -> K -> bool) (R : reflects keq).
Notation tab := (list (K * V)).
Lemma put_char (t : tab) w : put keq t w = write_first keq t (fst w) (snd w).
Proof.
  unfold put, lk_at_write. destruct (find (fun x => keq (fst x) (fst w)) t) eqn:F; [reflexivity|].
  induction t as [|x r IH]; [reflexivity|]. cbn [find write_first] in *. destruct (keq (fst x) (fst w)); [discriminate|]. f_equal. now apply IH.
Qed.
Lemma keys_put (t : tab) w : map fst (put keq t w) = map fst t.
Proof. rewrite put_char. induction t as [|x r IH]; [reflexivity|]. cbn [write_first]. destruct (keq (fst x) (fst w)); cbn [map fst]; [reflexivity|now rewrite IH]. Qed.
Lemma keys_puts ws : forall t : tab, map fst (puts keq t ws) = map fst t.
Proof. induction ws as [|w ws IH]; intros t; [reflexivity|]. cbn [puts fold_left]. change (fold_left (put keq) ws ?x) with (puts keq x ws). now rewrite IH, keys_put. Qed.
Lemma at_put (t : tab) w k : lk_at keq (put keq t w) k =
  match lk_at keq t k with Ok v0 => Ok (if keq (fst w) k then snd w else v0) | e => e end.
Proof.
  rewrite put_char. unfold lk_at. destruct w as [kw vw]. cbn [fst snd]. induction t as [|[kx vx] r IH]; [reflexivity|]. cbn [write_first find fst].
  destruct (keq kx kw) eqn:E1.
  - apply R in E1. subst kx. cbn [find fst]. destruct (keq kw k) eqn:E2; [reflexivity|]. now destruct (find (fun x => keq (fst x) k) r).
  - cbn [find fst]. destruct (keq kx k) eqn:E2; [|exact IH]. cbn [snd]. destruct (keq kw k) eqn:E3; [|reflexivity].
    apply R in E2, E3. subst. rewrite (proj2 (R k k) eq_refl) in E1. discriminate.
Qed.
Lemma at_puts ws : forall (t : tab) k, lk_at keq (puts keq t ws) k =
  match lk_at keq t k with Ok v0 => Ok (match last_put keq k ws with Some v => v | None => v0 end) | e => e end.
Proof.
  induction ws as [|w ws IH] using rev_ind; intros t k.
  - cbn. now destruct (lk_at keq t k).
  - unfold puts. rewrite fold_left_app. cbn [fold_left]. change (fold_left (put keq) ws t) with (puts keq t ws). rewrite at_put, IH.
    unfold last_put. rewrite rev_app_distr. cbn [rev app filter]. destruct (lk_at keq t k); try reflexivity. now destruct (keq (fst w) k).
Qed.
Lemma put_throws (t : tab) ws k v : (lk_at_write keq (puts keq t ws) k v = Throw out_of_range <-> ~ In k (map fst t)) /\ (lk_at keq (puts keq t ws) k = Throw out_of_range <-> ~ In k (map fst t)).
Proof.
  rewrite at_write_throws. rewrite at_throws. rewrite <- (keys_puts ws t). split; split.
  - intros H I. apply in_map_iff in I. destruct I as (x & E & I). specialize (H x I). rewrite E, (proj2 (R k k) eq_refl) in H. discriminate.
  - intros H x I. destruct (keq (fst x) k) eqn:E; [|reflexivity]. apply R in E. subst k. destruct H. now apply in_map.
  - intros H I. apply in_map_iff in I. destruct I as (x & E & I). specialize (H x I). rewrite E, (proj2 (R k k) eq_refl) in H. discriminate.
  - intros H x I. destruct (keq (fst x) k) eqn:E; [|reflexivity]. apply R in E. subst k. destruct H. now apply in_map.
Qed.
Lemma put_commutes (t : tab) k1 v1 k2 v2 : k1 <> k2 -> put keq (put keq t (k1, v1)) (k2, v2) = put keq (put keq t (k2, v2)) (k1, v1).
Proof.
  intros D. rewrite !put_char. cbn [fst snd]. induction t as [|[k v] r IH]; [reflexivity|]. cbn [write_first fst].
  destruct (keq k k1) eqn:E1, (keq k k2) eqn:E2; cbn [write_first fst]; rewrite ?E1, ?E2; try reflexivity.
  - apply R in E1, E2. congruence.
  - now rewrite IH.
Qed.
Context (veq : V -> V -> bool).
Lemma at_head (x : K * V) r : lk_at keq (x :: r) (fst x) = Ok (snd x).
Proof. unfold lk_at. cbn [find]. now rewrite (proj2 (R (fst x) (fst x)) eq_refl). Qed.
Lemma at_tail (x : K * V) r k : k <> fst x -> lk_at keq (x :: r) k = lk_at keq r k.
Proof. intros N. unfold lk_at. cbn [find]. destruct (keq (fst x) k) eqn:E; [|reflexivity]. apply R in E. congruence. Qed.
Lemma with_keys (t : tab) v k : NoDup (map fst t) ->
  lk_with veq t v = Ok k <-> exists l1 l2, map fst t = l1 ++ k :: l2 /\ (exists v', lk_at keq t k = Ok v' /\ veq v' v = true) /\
    forall k', In k' l1 -> exists v', lk_at keq t k' = Ok v' /\ veq v' v = false.
Proof.
  intros ND. induction t as [|x r IH].
  - split; [discriminate|]. intros (l1 & l2 & E & _). destruct l1; discriminate.
  - cbn [map] in ND. apply NoDup_cons_iff in ND. destruct ND as (NI & ND). specialize (IH ND). unfold lk_with in *. cbn [find].
    destruct (veq (snd x) v) eqn:EV.
    + split.
      * intros E. injection E as <-. exists [], (map fst r). split; [reflexivity|]. split; [exists (snd x); split; [apply at_head|exact EV]|]. intros k' [].
      * intros (l1 & l2 & E & H1 & H2). destruct l1 as [|y l1]; cbn in E; [congruence|]. injection E as <- E.
        destruct (H2 (fst x) (or_introl eq_refl)) as (v' & A & B). rewrite at_head in A. congruence.
    + rewrite IH. split.
      * intros (l1 & l2 & E & (v' & A & B) & H2). exists (fst x :: l1), l2. split; [cbn [map app]; now rewrite E|]. split.
        -- exists v'. split; [|exact B]. rewrite at_tail; [exact A|]. intros ->. apply NI. rewrite E. apply in_or_app. right. now left.
        -- intros k' [<-|I]; [exists (snd x); split; [apply at_head|exact EV]|]. destruct (H2 k' I) as (u & C & D). exists u. split; [|exact D].
           rewrite at_tail; [exact C|]. intros ->. apply NI. rewrite E. apply in_or_app. now left.
      * intros (l1 & l2 & E & (v' & A & B) & H2). destruct l1 as [|y l1]; cbn in E.
        -- injection E as <- E. rewrite at_head in A. injection A as <-. congruence.
        -- injection E as <- E. exists l1, l2. split; [exact E|].
           assert (N1 : forall q, In q (map fst r) -> q <> fst x) by (intros q I ->; contradiction).
           split.
           ++ exists v'. split; [|exact B]. rewrite at_tail in A; [exact A|]. apply N1. rewrite E. apply in_or_app. right. now left.
           ++ intros k' I. destruct (H2 k' (or_intror I)) as (u & C & D). exists u. split; [|exact D]. rewrite at_tail in C; [exact C|]. apply N1. rewrite E. apply in_or_app. now left.
Qed.
Lemma with_puts (t : tab) ws v k : NoDup (map fst t) ->
  lk_with veq (puts keq t ws) v = Ok k <-> exists l1 l2, map fst t = l1 ++ k :: l2 /\ (exists v', lk_at keq (puts keq t ws) k = Ok v' /\ veq v' v = true) /\
    forall k', In k' l1 -> exists v', lk_at keq (puts keq t ws) k' = Ok v' /\ veq v' v = false.
Proof. intros ND. rewrite with_keys by (now rewrite keys_puts). now rewrite keys_puts. Qed.

Context (RV : reflects veq).
Lemma at_with (t : tab) k v : NoDup (map snd t) -> lk_at keq t k = Ok v -> lk_with veq t v = Ok k.
Proof.
  intros ND. unfold lk_at, lk_with. induction t as [|x r IH]; [discriminate|]. cbn [map] in ND. apply NoDup_cons_iff in ND. destruct ND as (NI & ND). cbn [find].
  destruct (keq (fst x) k) eqn:E.
  - intros H. injection H as <-. rewrite (proj2 (RV _ _) eq_refl). apply R in E. now subst.
  - intros H. destruct (veq (snd x) v) eqn:EV; [|now apply IH]. apply RV in EV. subst v. destruct NI.
    destruct (find (fun x0 => keq (fst x0) k) r) as [y|] eqn:F; [|discriminate]. injection H as H. rewrite <- H. apply in_map. now apply find_some in F.
Qed.
Lemma translated (t : tab) ks vs : NoDup (map snd t) -> each (lk_at keq t) ks = Ok vs -> each (lk_with veq t) vs = Ok ks.
Proof.
  intros ND. revert vs. induction ks as [|k ks IH]; intros vs H; cbn [each] in H; [injection H as <-; reflexivity|].
  destruct (lk_at keq t k) as [v| | | |] eqn:A; try discriminate. cbn [obind] in H. destruct (each (lk_at keq t) ks) as [us| | | |]; try discriminate. cbn [obind] in H.
  injection H as <-. cbn [each]. rewrite (at_with t k v ND A). cbn [obind]. rewrite (IH us eq_refl). reflexivity.
Qed.
Lemma translate_total (t : tab) ks : (exists vs, each (lk_at keq t) ks = Ok vs /\ length vs = length ks /\ Forall (fun k => In k (map fst t)) ks) \/
  (each (lk_at keq t) ks = Throw out_of_range /\ exists k, In k ks /\ ~ In k (map fst t)).
Proof.
  induction ks as [|k ks IH]; [left; exists []; auto|]. cbn [each].
  destruct (lk_at keq t k) as [v|e| | |] eqn:A.
  - cbn [obind]. assert (IK : In k (map fst t)).
    { unfold lk_at in A. destruct (find (fun x => keq (fst x) k) t) as [y|] eqn:F; [|discriminate]. apply find_some in F. destruct F as (F1 & F2). apply R in F2. subst k. now apply in_map. }
    destruct IH as [(vs & -> & L & F)|(-> & q & Q & NQ)].
    + left. exists (v :: vs). cbn [obind length]. repeat split; [lia|]. now constructor.
    + right. cbn [obind]. split; [reflexivity|]. exists q. split; [now right|exact NQ].
  - right. unfold lk_at in A. destruct (find (fun x => keq (fst x) k) t) eqn:F; [discriminate|]. injection A as <-. cbn [obind]. split; [reflexivity|].
    exists k. split; [now left|]. intros I. apply in_map_iff in I. destruct I as (x & <- & I). pose proof (find_none _ _ F x I) as Q. cbn in Q. rewrite (proj2 (R _ _) eq_refl) in Q. discriminate.
  - unfold lk_at in A. destruct (find (fun x => keq (fst x) k) t); discriminate.
  - unfold lk_at in A. destruct (find (fun x => keq (fst x) k) t); discriminate.
  - unfold lk_at in A. destruct (find (fun x => keq (fst x) k) t); discriminate.
Qed.
End P.
