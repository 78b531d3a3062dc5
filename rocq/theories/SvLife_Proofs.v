(** Element lifetimes in a static_vector, the sized constructor, throwing copies. *)
From Coq Require Import List. Import ListNotations.
From Verif Require Import Base BaseFacts Iter_Model Sv_Model Coll_Spec Sv_Proofs.

Section Life.
Context {V : Type}.
Variables (b : build) (cap : N) (moved : V -> V) (veq : V -> V -> bool).

Definition good (s : slot V) : Prop := match sl_val s with Some _ => alive s | None => all_destroyed s end.

Lemma completed_S : forall n, completed n ++ [ev_ctor; ev_dtor] = completed (S n).
Proof. induction n; [reflexivity|]. unfold completed in *. cbn in *. now rewrite IHn. Qed.

Lemma good_put : forall x s, good s -> good (slot_put x s).
Proof.
  intros x [[y|] h] H; unfold good, slot_put in *; cbn in *; [exact H|].
  destruct H as [n H]. exists n. cbn in *. now rewrite H.
Qed.
Lemma good_reset : forall s, good s -> good (slot_reset s).
Proof.
  intros [[y|] h] H; unfold good, slot_reset in *; cbn in *; [|exact H].
  destruct H as [n H]. exists (S n). cbn in *. rewrite H, <- app_assoc. cbn [app]. apply completed_S.
Qed.
Lemma good_assign : forall o s, good s -> good (slot_assign o s).
Proof. intros [x|] s; [apply good_put|apply good_reset]. Qed.
Lemma good_write : forall x s, good s -> good (slot_write x s).
Proof. intros x [[y|] h] H; exact H. Qed.

Definition goodv (v : svec V) : Prop := Forall good (sv_slots v).

Lemma good_take : forall n l, Forall good l -> Forall good (takeN n l).
Proof. intros n l H. rewrite <- (firstn_skipn (N.to_nat n) l) in H. apply Forall_app in H. apply H. Qed.
Lemma good_drop : forall n l, Forall good l -> Forall good (dropN n l).
Proof. intros n l H. rewrite <- (firstn_skipn (N.to_nat n) l) in H. apply Forall_app in H. apply H. Qed.
Lemma good_map : forall f l, (forall s, good s -> good (f s)) -> Forall good l -> Forall good (map f l).
Proof. intros f l Hf H. apply Forall_map. eapply Forall_impl; eauto. Qed.
Lemma good_upd : forall f st n l, (forall s, good s -> good (f s)) -> Forall good l -> Forall good (upd_slots f st n l).
Proof.
  intros f st n l Hf H. unfold upd_slots. apply Forall_app. split; [now apply good_take|].
  apply Forall_app. split; [|now apply good_drop]. apply good_map; auto. now apply good_take, good_drop.
Qed.

Lemma good_default : goodv (sv_default cap).
Proof. apply Forall_forall. intros s H. apply repeat_spec in H. subst s. exists 0%nat. reflexivity. Qed.

Lemma good_alloc : forall v n x fail, goodv v -> goodv (snd (sv_alloc v n x fail)).
Proof.
  intros v n x fail H. unfold sv_alloc. destruct (_ <? _); [exact H|].
  destruct fail as [k|]; [destruct (k <? n)|]; apply good_upd; auto using good_put.
Qed.
Lemma good_resize : forall v n x fail, goodv v -> goodv (snd (sv_resize v n x fail)).
Proof.
  intros v n x fail H. unfold sv_resize. destruct (_ <? _); [exact H|]. unfold sv_unsafe_resize.
  destruct (_ <? _).
  - pose proof (good_alloc v (n - sv_size v) x fail H) as G. destruct (sv_alloc _ _ _ _) as [[ | | | |] v']; exact G.
  - destruct (_ <? _); [|exact H]. unfold sv_destroy_last. destruct (_ <? _); [exact H|]. cbn. apply good_upd; auto using good_reset.
Qed.
Lemma good_push : forall v x fail, goodv v -> goodv (snd (sv_push_back v x fail)).
Proof.
  intros v x fail H. unfold sv_push_back. destruct fail as [[|k]|]; [exact H| |]; apply good_resize; exact H.
Qed.
Lemma good_index_write : forall v k x, goodv v -> goodv (snd (sv_index_write v k x)).
Proof. intros v k x H. unfold sv_index_write. destruct (sv_index v k); try exact H. apply good_upd; auto using good_write. Qed.

Lemma good_put_each : forall l s, Forall good s -> Forall good (put_each l s).
Proof.
  induction l as [|x l IH]; intros [|y s] H; cbn; auto. inversion H; subst. constructor; [now apply good_put|auto].
Qed.
Lemma good_swap : forall x y, Forall good x -> Forall good y ->
  Forall good (fst (swap_slots x y)) /\ Forall good (snd (swap_slots x y)).
Proof.
  induction x as [|s x IH]; intros [|t y] Hx Hy; cbn; auto. inversion Hx; inversion Hy; subst.
  destruct (IH y) as [A B]; auto. destruct (swap_slots x y) as [p q]. cbn in *. split; constructor; auto using good_assign.
Qed.
Lemma good_copy : forall x y fail, Forall good x -> Forall good (snd (copy_slots x y fail)).
Proof.
  induction x as [|s x IH]; intros [|t y] fail H; cbn; auto. inversion H; subst.
  destruct (sl_val t) as [v|].
  - destruct fail as [[|k]|]; [exact H| |].
    + specialize (IH y (Some (N.pos k - 1)) H3). destruct (copy_slots x y _) as [ok r]. constructor; auto using good_put.
    + specialize (IH y None H3). destruct (copy_slots x y _) as [ok r]. constructor; auto using good_put.
  - specialize (IH y fail H3). destruct (copy_slots x y fail) as [ok r]. constructor; auto using good_reset.
Qed.
Lemma good_move : forall x y, Forall good x -> Forall good y ->
  Forall good (fst (move_slots moved x y)) /\ Forall good (snd (move_slots moved x y)).
Proof.
  induction x as [|s x IH]; intros [|t y] Hx Hy; cbn; auto. inversion Hx; inversion Hy; subst.
  destruct (IH y) as [A B]; auto. destruct (move_slots moved x y) as [p q]. cbn in *.
  split; constructor; auto using good_assign. destruct (sl_val t); auto using good_write.
Qed.

Definition goodp (p : N -> svec V) : Prop := forall i, goodv (p i).
Lemma goodp_upd : forall p i v, goodp p -> goodv v -> goodp (upd p i v).
Proof. intros p i v H G k. unfold upd. destruct (k =? i); auto. Qed.

Lemma good_step : forall o p, goodp p -> goodp (snd (sv_step b cap moved veq o p)).
Proof.
  intros o p H. destruct o; cbn [sv_step]; try exact H; unfold on1, on2; cbn [fst snd].
  - apply goodp_upd; auto. apply good_push, H.
  - apply goodp_upd; auto. apply good_resize, H.
  - apply goodp_upd; auto. exact (H i).
  - unfold sv_swap. destruct (good_swap _ _ (H i) (H j)) as [A B]. destruct (swap_slots _ _) as [q r]. apply goodp_upd; auto. apply goodp_upd; auto.
  - apply goodp_upd; auto. unfold sv_at_write. destruct (_ <=? _); [exact (H i)|apply good_index_write, H].
  - apply goodp_upd; auto. apply good_index_write, H.
  - unfold sv_of_list. destruct (cap <? _); [exact H|]. destruct (match fail with Some _ => _ | None => _ end); [exact H|]. cbn [fst snd]. apply goodp_upd; auto. unfold sv_move_assign. cbn [sv_slots].
    destruct (good_move (sv_slots (p i)) (put_each l (sv_slots (sv_default cap))) (H i)) as [A B]; [apply good_put_each, good_default|].
    destruct (move_slots _ _ _) as [q r]. exact A.
  - apply goodp_upd; auto. unfold sv_copy_assign. pose proof (good_copy _ (sv_slots (p j)) fail (H i)) as A.
    destruct (copy_slots _ _ _) as [[|] r]; exact A.
  - destruct (i =? j).
    { cbn [fst snd]. apply goodp_upd; auto. unfold sv_self_move, sv_move_assign. destruct (good_move _ _ (H i) (H i)) as [_ B].
      destruct (move_slots _ _ _) as [q r]. exact B. }
    cbn [fst snd]. unfold sv_move_assign. destruct (good_move _ _ (H i) (H j)) as [A B]. destruct (move_slots _ _ _) as [q r]. apply goodp_upd; auto. apply goodp_upd; auto.
Qed.

Lemma good_run : forall ops p, goodp p -> goodp (snd (sv_run b cap moved veq ops p)).
Proof.
  induction ops as [|o ops IH]; intros p H; cbn [sv_run]; [exact H|].
  pose proof (good_step o p H) as G. destruct (sv_step b cap moved veq o p) as [x p1]. cbn [snd] in G.
  specialize (IH p1 G). destruct (sv_run b cap moved veq ops p1) as [xs p2]. exact IH.
Qed.

Lemma exactly_once : forall ops i s,
  In s (sv_slots (sv_destroy (snd (sv_run b cap moved veq ops (sv_start cap)) i))) -> all_destroyed s.
Proof.
  intros ops i s Hs. assert (G : goodp (snd (sv_run b cap moved veq ops (sv_start cap)))) by (apply good_run; intros k; apply good_default).
  cbn [sv_destroy sv_slots] in Hs. apply in_map_iff in Hs as (t & <- & Ht).
  pose proof (proj1 (Forall_forall _ _) (G i) t Ht) as Gt. pose proof (good_reset t Gt) as H.
  unfold good in H. rewrite reset_val in H. exact H.
Qed.

Lemma engaged_alive : forall ops i s,
  In s (sv_slots (snd (sv_run b cap moved veq ops (sv_start cap)) i)) ->
  (sl_val s <> None -> alive s) /\ (sl_val s = None -> all_destroyed s).
Proof.
  intros ops i s Hs. assert (G : goodp (snd (sv_run b cap moved veq ops (sv_start cap)))) by (apply good_run; intros k; apply good_default).
  pose proof (proj1 (Forall_forall _ _) (G i) s Hs) as H. unfold good in H. destruct (sl_val s); split; intros; congruence || auto.
Qed.

(** ** No element lives beyond size() unless clear() or a throwing copy left it there *)
Definition tight (v : svec V) : Prop :=
  lenN (sv_slots v) = cap /\ exists l k, sv_count v = lenN l /\ sv_raw v = map Some l ++ repeat None k.

Lemma repeat_dropN : forall (A : Type) (x : A) k n, dropN n (repeat x k) = repeat x (k - N.to_nat n).
Proof.
  intros A x k n. unfold dropN. generalize (N.to_nat n) as m. clear n. intros m. revert m.
  induction k; intros [|m]; cbn; auto.
Qed.

Lemma tight_default : tight (sv_default cap).
Proof.
  split; [cbn; unfold lenN; rewrite repeat_length; lia|]. exists [], (N.to_nat cap). split; [reflexivity|].
  cbn. unfold sv_raw. cbn [sv_default sv_slots]. induction (N.to_nat cap); cbn; congruence.
Qed.

Lemma tight_resize : forall v n x, tight v -> tight (snd (sv_resize v n x None)).
Proof.
  intros v n x Ht. pose proof Ht as [Hc (l & k & Hl & Hr)].
  assert (Hk : lenN l + N.of_nat k = cap).
  { rewrite <- Hc, <- (raw_len v), Hr, lenN_app, lenN_map. unfold lenN. rewrite repeat_length. lia. }
  unfold sv_resize. destruct (sv_capacity v <? n) eqn:E0; [exact Ht|]. unfold sv_capacity in E0. rewrite Hc in E0. unfold sv_unsafe_resize, sv_size. rewrite Hl.
  destruct (lenN l <? n) eqn:E.
  - unfold sv_alloc, sv_capacity. rewrite Hc, Hl, (proj2 (N.ltb_ge _ _)) by lia. cbv beta iota. cbn [snd]. split.
    + cbn [set_count sv_slots]. now rewrite upd_slots_len.
    + exists (l ++ repeat x (N.to_nat (n - lenN l))), (k - N.to_nat (n - lenN l))%nat. split.
      * cbn [set_count sv_count]. rewrite lenN_app, lenN_repeat. lia.
      * unfold sv_raw. cbn [set_count sv_slots]. rewrite (upd_slots_const _ (Some x)) by (try apply put_val; lia).
        fold (sv_raw v). rewrite Hr, takeN_app_exact by (now rewrite lenN_map).
        rewrite map_app, <- app_assoc. f_equal. f_equal.
        -- clear. induction (N.to_nat (n - lenN l)); cbn; congruence.
        -- rewrite dropN_app, lenN_map. rewrite dropN_all by (rewrite lenN_map; lia).
           cbn [app]. rewrite repeat_dropN. f_equal. lia.
  - destruct (n <? lenN l) eqn:E2.
    + unfold sv_destroy_last, sv_capacity. rewrite Hc, Hl, (proj2 (N.ltb_ge _ _)) by lia. cbn [snd]. split.
      * cbn [set_count sv_slots]. now rewrite upd_slots_len.
      * exists (takeN n l), (N.to_nat (lenN l - n) + k)%nat. split.
        -- cbn [set_count sv_count]. rewrite lenN_takeN. lia.
        -- replace (lenN l - (lenN l - n)) with n by lia.
           unfold sv_raw. cbn [set_count sv_slots]. rewrite (upd_slots_const _ None) by (try apply reset_val; lia).
           fold (sv_raw v). rewrite Hr, takeN_app. replace (n - lenN (map Some l)) with 0 by (rewrite lenN_map; lia).
           rewrite takeN_0, app_nil_r, <- map_takeN. f_equal.
           rewrite repeat_app. f_equal. rewrite dropN_app_exact by (rewrite lenN_map; lia). reflexivity.
    + cbn [snd]. split; [exact Hc|]. exists l, k. split; [cbn; lia|exact Hr].
Qed.


Lemma tight_raw : forall v w, tight v -> sv_raw w = sv_raw v -> sv_count w = sv_count v -> tight w.
Proof.
  intros v w [Hc (l & k & Hl & Hr)] H1 H2. split.
  - rewrite <- raw_len, H1, raw_len. exact Hc.
  - exists l, k. split; congruence.
Qed.

Lemma tight_write : forall v k x, tight v -> tight (snd (sv_index_write v k x)).
Proof.
  intros v k x Ht. unfold sv_index_write. destruct (sv_index v k) as [y| | | |] eqn:Ey; try exact Ht.
  destruct Ht as [Hc (l & m & Hl & Hr)].
  assert (Hk : k < lenN l).
  { unfold sv_index in Ey. destruct (nth_error (sv_slots v) (N.to_nat k)) as [s|] eqn:Es; [|discriminate].
    destruct (sl_val s) as [z|] eqn:Ez; [|discriminate].
    assert (E : nth_error (sv_raw v) (N.to_nat k) = Some (Some z)) by (unfold sv_raw; rewrite nth_error_map, Es; cbn; congruence).
    rewrite Hr in E. destruct (N.ltb_spec k (lenN l)) as [|Hge]; [assumption|exfalso].
    rewrite nth_error_app2 in E by (rewrite map_length; unfold lenN in Hge; lia).
    apply nth_error_In in E. apply repeat_spec in E. discriminate. }
  cbn [snd]. split; [cbn [sv_slots]; now rewrite upd_slots_len|].
  exists (write_list l k x), m. split.
  - cbn [sv_count]. rewrite Hl. unfold write_list. rewrite lenN_app, lenN_cons, lenN_takeN, lenN_dropN. lia.
  - assert (HR : R cap v l) by (split; [exact Hc|split; [exact Hl|eauto]]).
    assert (E : dropN (lenN l) (sv_raw (mk_svec (upd_slots (slot_write x) k 1 (sv_slots v)) (sv_count v))) = repeat None m).
    { unfold sv_raw. cbn [sv_slots]. unfold upd_slots. rewrite !map_app, map_map, map_takeN, map_dropN. fold (sv_raw v).
      assert (Hsl : lenN l <= lenN (sv_slots v)) by (rewrite <- raw_len, Hr, lenN_app, lenN_map; lia).
      rewrite app_assoc. rewrite dropN_app.
      rewrite dropN_all by (rewrite lenN_app, lenN_takeN, lenN_map, lenN_takeN, lenN_dropN, raw_len; lia).
      cbn [app]. rewrite lenN_app, lenN_takeN, lenN_map, lenN_takeN, lenN_dropN, raw_len, dropN_dropN.
      rewrite Hr, dropN_app_exact by (rewrite lenN_map; lia). reflexivity. }
    destruct (R_write cap moved veq v l k x HR Hk) as (v' & Hv & HR'). unfold sv_index_write in Hv. rewrite Ey in Hv. injection Hv as <-.
    destruct HR' as (_ & _ & rest & Hrest). rewrite Hrest in E. rewrite dropN_app_exact in E.
    + subst rest. exact Hrest.
    + rewrite lenN_map. unfold write_list. rewrite lenN_app, lenN_cons, lenN_takeN, lenN_dropN. lia.
Qed.

Lemma map_rep : forall (A B : Type) (f : A -> B) x k, map f (repeat x k) = repeat (f x) k.
Proof. induction k; cbn; congruence. Qed.

Lemma tight_of_list : forall l, lenN l <= cap -> tight (mk_svec (put_each l (sv_slots (sv_default cap))) (lenN l)).
Proof.
  intros l Hl. destruct (put_each_val moved veq l (sv_slots (@sv_default V cap))) as [A B].
  { cbn. rewrite repeat_length. unfold lenN in Hl. lia. }
  split; cbn [sv_slots sv_count].
  - unfold lenN. rewrite B. cbn. rewrite repeat_length. lia.
  - exists l, (N.to_nat cap - length l)%nat. split; [reflexivity|]. unfold sv_raw. cbn [sv_slots]. rewrite A. f_equal.
    cbn [sv_default sv_slots]. rewrite map_rep. cbn [sl_val].
    pose proof (repeat_dropN _ (@None V) (N.to_nat cap) (lenN l)) as D. unfold dropN in D.
    replace (N.to_nat (lenN l)) with (length l) in D by (unfold lenN; lia). exact D.
Qed.

Lemma tight_move : forall v w, tight v -> tight w ->
  tight (fst (sv_move_assign moved v w)) /\ tight (snd (sv_move_assign moved v w)).
Proof.
  intros v w Hv Hw. assert (L : length (sv_slots v) = length (sv_slots w)) by (destruct Hv as [A _], Hw as [B _]; unfold lenN in *; lia).
  destruct (move_slots_val moved _ _ L) as [A B].
  unfold sv_move_assign. destruct (move_slots moved (sv_slots v) (sv_slots w)) as [p q]. cbn [fst snd] in *. split.
  - apply (tight_raw w); auto.
  - destruct Hw as [Hc (l & k & Hl & Hr)]. split; cbn [sv_slots].
    + apply (f_equal (@length _)) in B. rewrite !map_length in B. unfold lenN in *. lia.
    + exists (map moved l), k. split; [cbn; rewrite lenN_map; exact Hl|]. unfold sv_raw. cbn [sv_slots]. rewrite B.
      fold (sv_raw w). rewrite Hr, map_app, map_map, map_map, map_rep. reflexivity.
Qed.

Definition tightp (p : N -> svec V) : Prop := forall i, tight (p i).
Lemma tightp_upd : forall p i v, tightp p -> tight v -> tightp (upd p i v).
Proof. intros p i v H G k. unfold upd. destruct (k =? i); auto. Qed.

Lemma tight_step : forall o p, plain_op o = true -> tightp p -> tightp (snd (sv_step b cap moved veq o p)).
Proof.
  intros o p Ho H. destruct o; cbn [sv_step]; try exact H; unfold on1, on2; cbn [fst snd]; cbn [plain_op] in Ho.
  - destruct fail; [discriminate|]. apply tightp_upd; auto. apply tight_resize, H.
  - destruct fail; [discriminate|]. apply tightp_upd; auto. apply tight_resize, H.
  - discriminate.
  - assert (L : length (sv_slots (p i)) = length (sv_slots (p j))) by (destruct (H i) as [A _], (H j) as [B _]; unfold lenN in *; lia).
    destruct (swap_slots_val _ _ L) as [A B]. unfold sv_swap. destruct (swap_slots _ _) as [q r]. cbn [fst snd] in *.
    apply tightp_upd; [apply tightp_upd; auto|]; [apply (tight_raw (p i))|apply (tight_raw (p j))]; auto.
  - apply tightp_upd; auto. unfold sv_at_write. destruct (_ <=? _); [exact (H i)|apply tight_write, H].
  - apply tightp_upd; auto. apply tight_write, H.
  - unfold sv_of_list. destruct (cap <? lenN l) eqn:E; [exact H|]. destruct (match fail with Some _ => _ | None => _ end); [exact H|]. cbn [fst snd]. apply tightp_upd; auto.
    apply (tight_move _ _ (H i)). apply tight_of_list. lia.
  - destruct fail; [discriminate|]. apply tightp_upd; auto.
    assert (L : length (sv_slots (p i)) = length (sv_slots (p j))) by (destruct (H i) as [A _], (H j) as [B _]; unfold lenN in *; lia).
    destruct (copy_slots_val _ _ L) as [A B]. unfold sv_copy_assign. destruct (copy_slots _ _ _) as [q r]. cbn [fst snd] in *. subst q.
    apply (tight_raw (p j)); auto.
  - destruct (i =? j).
    { cbn [fst snd]. apply tightp_upd; auto. apply (tight_move _ _ (H i) (H i)). }
    cbn [fst snd]. destruct (tight_move _ _ (H i) (H j)) as [A B]. apply tightp_upd; [apply tightp_upd; auto|]; auto.
Qed.

Lemma tight_run : forall ops p, forallb plain_op ops = true -> tightp p -> tightp (snd (sv_run b cap moved veq ops p)).
Proof.
  induction ops as [|o ops IH]; intros p Ho H; cbn [sv_run]; [exact H|]. cbn [forallb] in Ho. apply andb_true_iff in Ho as [Ho Hos].
  pose proof (tight_step o p Ho H) as G. destruct (sv_step b cap moved veq o p) as [x p1]. cbn [snd] in G.
  specialize (IH p1 Hos G). destruct (sv_run b cap moved veq ops p1) as [xs p2]. exact IH.
Qed.

Lemma completed_rev : forall n, alive_now (rev (completed n)) = false.
Proof. intros [|n]; [reflexivity|]. rewrite <- completed_S, rev_app_distr. reflexivity. Qed.

Lemma good_alive_now : forall s, good s -> alive_now (sl_hist s) = match sl_val s with Some _ => true | None => false end.
Proof.
  intros s H. unfold good in H. rewrite <- (rev_involutive (sl_hist s)). destruct (sl_val s); destruct H as [n ->].
  - rewrite rev_app_distr. reflexivity.
  - apply completed_rev.
Qed.

Lemma live_count : forall v, goodv v -> tight v -> live_elements v = sv_size v.
Proof.
  intros v Hg [_ (l & k & Hl & Hr)]. unfold live_elements, sv_size. rewrite Hl.
  assert (E : forall s, Forall good s -> lenN (filter (fun s => alive_now (sl_hist s)) s) =
    lenN (filter (fun o => match o with Some _ => true | None => false end) (map sl_val s))).
  { induction s as [|t s IH]; intros H; [reflexivity|]. inversion H; subst. cbn [filter map].
    rewrite good_alive_now by assumption. destruct (sl_val t); rewrite ?lenN_cons, IH; auto. }
  rewrite E by exact Hg. fold (sv_raw v). rewrite Hr, filter_app, lenN_app.
  replace (filter _ (repeat None k)) with (@nil (option V)) by (clear; induction k; auto).
  rewrite lenN_nil, N.add_0_r. clear. induction l; [reflexivity|]. cbn [map filter]. now rewrite !lenN_cons, IHl.
Qed.

Lemma live_is_size : forall ops i, forallb plain_op ops = true ->
  live_elements (snd (sv_run b cap moved veq ops (sv_start cap)) i) = sv_size (snd (sv_run b cap moved veq ops (sv_start cap)) i).
Proof.
  intros ops i H. apply live_count.
  - apply good_run. intros k; apply good_default.
  - apply tight_run; [exact H|]. intros k; apply tight_default.
Qed.

(** ** The sized constructor *)
Lemma of_size_exact : forall n, sv_size (@sv_of_size V cap n) = n mod 256 /\
  (forall k, k < n mod 256 -> sv_at (@sv_of_size V cap n) k = UB) /\
  (forall k, n mod 256 <= k -> sv_at (@sv_of_size V cap n) k = Throw out_of_range).
Proof.
  intros n. split; [reflexivity|]. unfold sv_at. cbn [sv_of_size sv_count]. split; intros k Hk.
  - rewrite (proj2 (N.leb_gt _ _)) by lia. unfold sv_index. cbn [sv_of_size sv_default sv_slots].
    destruct (nth_error _ _) as [s|] eqn:E; [|reflexivity]. apply nth_error_In, repeat_spec in E. subst s. reflexivity.
  - rewrite (proj2 (N.leb_le _ _)) by lia. reflexivity.
Qed.

(** ** Throwing copies *)
End Life.

(** A copy assignment whose second element copy throws leaves the destination with a
    hole below size(). *)
Definition hole_ops : list (sop N) :=
  [SPush 0 1 None; SPush 0 2 None; SClear 0; SPush 0 3 None; SResize 0 0 0 None;   (* v0: [-, 2 (dead), ...], size 0 *)
   SPush 1 7 None; SPush 1 8 None;                                                (* v1: 7 8 *)
   SCopy 1 0 (Some 0);                                                           (* v1 = v0, the copy of 2 throws *)
   SSize 1; SAt 1 0].
Lemma copy_hole : sv_run Release 4 (fun x : N => x) N.eqb hole_ops (sv_start 4) =
  (repeat (ODone (Ok tt)) 7 ++ [ODone (Throw user_exn); ONum 2; OVal UB], snd (sv_run Release 4 (fun x : N => x) N.eqb hole_ops (sv_start 4))).
Proof. reflexivity. Qed.

Lemma clear_keeps_elements :
  let p := snd (sv_run Release 4 (fun x : N => x) N.eqb [SPush 0 1 None; SPush 0 2 None; SClear 0] (sv_start 4)) in
  sv_size (p 0) = 0 /\ live_elements (p 0) = 2.
Proof. split; reflexivity. Qed.
