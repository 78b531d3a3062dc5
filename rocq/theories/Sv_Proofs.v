(** static_vector refines a bounded list. *)
From Coq Require Import List. Import ListNotations.
From Verif Require Import Base BaseFacts Iter_Model Sv_Model Coll_Spec.

(** ** Iteration *)
Section IterFacts.
Context {V : Type}.
Variable b : build.

Lemma nth_error_app_at : forall (A : Type) (a c : list A) x, nth_error (a ++ x :: c) (length a) = Some x.
Proof. induction a; cbn; auto. Qed.

Lemma di_walk_spec : forall (l pre : list (option V)) vs parent rest,
  l = map Some vs ->
  forall fuel, fuel = length vs ->
  di_walk b (pre ++ l ++ rest) fuel
    (mk_diter (Z.of_nat (length pre)) parent 0 (Z.of_nat (length pre + length l)))
    (mk_diter (Z.of_nat (length pre + length l)) parent 0 (Z.of_nat (length pre + length l))) = Ok vs.
Proof.
  intros l pre vs parent rest ->. rewrite map_length. revert pre.
  induction vs as [|v vs IH]; intros pre fuel ->.
  - cbn [length di_walk]. unfold di_eq. cbn [di_ptr]. rewrite Nat.add_0_r, Z.eqb_refl. reflexivity.
  - cbn [length]. cbn [di_walk]. unfold di_eq at 1. cbn [di_ptr].
    replace (Z.of_nat (length pre) =? Z.of_nat (length pre + S (length vs)))%Z with false
      by (symmetry; apply Z.eqb_neq; lia).
    unfold di_deref, raw_at. cbn [di_ptr].
    rewrite (proj2 (Z.ltb_ge _ _)) by lia. rewrite Nat2Z.id. cbn [map app].
    rewrite nth_error_app_at. cbn [obind].
    unfold di_inc. cbn [di_ptr di_end].
    replace (Z.of_nat (length pre) =? Z.of_nat (length pre + S (length vs)))%Z with false
      by (symmetry; apply Z.eqb_neq; lia).
    cbn [negb]. replace (dassert b true) with (@Ok unit tt) by (destruct b; reflexivity). cbn [obind].
    unfold di_move. cbn [di_ptr di_parent di_begin di_end].
    rewrite (proj2 (Z.leb_le _ _)) by lia.
    rewrite (proj2 (Z.leb_le _ _)) by (rewrite lenN_app, lenN_cons; unfold lenN; lia).
    cbn [andb obind].
    specialize (IH (pre ++ [Some v]) (length vs) eq_refl).
    rewrite <- app_assoc in IH. cbn [app] in IH. rewrite app_length in IH. cbn [length] in IH.
    replace (Z.of_nat (length pre) + 1)%Z with (Z.of_nat (length pre + 1)) by lia.
    replace (length pre + S (length vs))%nat with (length pre + 1 + length vs)%nat by lia.
    rewrite IH. reflexivity.
Qed.

Lemma di_rwalk_spec : forall (vs : list V) parent rest n,
  forall fuel, fuel = length vs ->
  di_rwalk b (map Some vs ++ rest) fuel
    (mk_diter (Z.of_nat (length vs)) parent 0 n) (mk_diter 0 parent 0 n) = Ok (rev vs).
Proof.
  intros vs parent. induction vs as [|v vs IH] using rev_ind; intros rest n fuel ->.
  - reflexivity.
  - rewrite app_length, Nat.add_comm. cbn [length Nat.add]. cbn [di_rwalk].
    unfold di_eq. cbn [di_ptr]. rewrite (proj2 (Z.eqb_neq _ _)) by lia.
    unfold di_dec. cbn [di_ptr di_begin]. rewrite (proj2 (Z.eqb_neq _ _)) by lia. cbn [negb].
    replace (dassert b true) with (@Ok unit tt) by (destruct b; reflexivity). cbn [obind].
    unfold di_move. cbn [di_ptr di_parent di_begin di_end].
    rewrite (proj2 (Z.leb_le _ _)) by lia.
    rewrite (proj2 (Z.leb_le _ _)) by (rewrite lenN_app; unfold lenN; rewrite map_length, app_length; cbn [length]; lia).
    cbn [andb obind].
    replace (Z.of_nat (S (length vs)) - 1)%Z with (Z.of_nat (length vs)) by lia.
    unfold di_deref, raw_at. cbn [di_ptr].
    rewrite (proj2 (Z.ltb_ge _ _)) by lia. rewrite Nat2Z.id.
    rewrite map_app, <- app_assoc. cbn [map app].
    replace (nth_error (map Some vs ++ Some v :: rest) (length vs)) with (Some (Some v))
      by (symmetry; rewrite <- (map_length Some vs); apply nth_error_app_at).
    cbn [obind]. rewrite IH by reflexivity. cbn [obind]. rewrite rev_app_distr. reflexivity.
Qed.
End IterFacts.

Lemma map_takeN : forall (A B : Type) (f : A -> B) n l, map f (takeN n l) = takeN n (map f l).
Proof. intros. unfold takeN. symmetry. apply firstn_map. Qed.
Lemma map_dropN : forall (A B : Type) (f : A -> B) n l, map f (dropN n l) = dropN n (map f l).
Proof. intros. unfold dropN. symmetry. apply skipn_map. Qed.
Lemma map_const : forall (A B : Type) (f : A -> B) y l, (forall x, f x = y) -> map f l = repeat y (length l).
Proof. induction l; cbn; intros; auto. rewrite H, IHl; auto. Qed.

Section SVProofs.
Context {V : Type}.
Variables (b : build) (cap : N) (moved : V -> V) (veq : V -> V -> bool).

(** The representation: the leading optionals hold the list. *)
Definition R (v : svec V) (l : list V) : Prop :=
  lenN (sv_slots v) = cap /\ sv_count v = lenN l /\
  exists rest, sv_raw v = map Some l ++ rest.

Lemma R_le : forall v l, R v l -> lenN l <= cap.
Proof.
  intros v l (H1 & _ & rest & H2). assert (H : lenN (sv_raw v) = cap) by (unfold sv_raw; rewrite lenN_map; exact H1).
  rewrite H2, lenN_app, lenN_map in H. lia.
Qed.

Lemma put_val : forall (x : V) s, sl_val (slot_put x s) = Some x.
Proof. intros x [[y|] h]; reflexivity. Qed.
Lemma reset_val : forall (s : slot V), sl_val (slot_reset s) = None.
Proof. intros [[y|] h]; reflexivity. Qed.
Lemma assign_val : forall o (s : slot V), sl_val (slot_assign o s) = o.
Proof. intros [x|] s; [apply put_val|apply reset_val]. Qed.

Lemma upd_slots_len : forall f st n (l : list (slot V)), lenN (upd_slots f st n l) = lenN l.
Proof.
  intros. unfold upd_slots. rewrite !lenN_app, lenN_map, !lenN_takeN, !lenN_dropN. lia.
Qed.
Lemma upd_slots_const : forall (f : slot V -> slot V) y st n l, (forall s, sl_val (f s) = y) ->
  st + n <= lenN l ->
  map sl_val (upd_slots f st n l) = takeN st (map sl_val l) ++ repeat y (N.to_nat n) ++ dropN (st + n) (map sl_val l).
Proof.
  intros f y st n l Hf Hl. unfold upd_slots. rewrite !map_app, map_map, map_takeN, map_dropN. f_equal. f_equal.
  rewrite (map_const _ _ _ y) by exact Hf. f_equal.
  apply N2Nat.inj_iff || idtac.
  assert (E : lenN (takeN n (dropN st l)) = n) by (rewrite lenN_takeN, lenN_dropN; lia).
  unfold lenN in E. lia.
Qed.

Lemma R_default : R (sv_default cap) [].
Proof.
  split; [|split].
  - cbn. unfold lenN. rewrite repeat_length. lia.
  - reflexivity.
  - eexists. reflexivity.
Qed.

Lemma raw_len : forall v : svec V, lenN (sv_raw v) = lenN (sv_slots v).
Proof. intros. unfold sv_raw. apply lenN_map. Qed.

Lemma R_alloc : forall v l n x, R v l -> lenN l + n <= cap ->
  R (set_count (mk_svec (upd_slots (slot_put x) (sv_count v) n (sv_slots v)) (sv_count v)) (lenN l + n))
    (l ++ repeat x (N.to_nat n)).
Proof.
  intros v l n x (H1 & H2 & rest & H3) Hn. split; [|split]; cbn [set_count sv_slots sv_count].
  - rewrite upd_slots_len. exact H1.
  - rewrite lenN_app, lenN_repeat. lia.
  - exists (dropN (lenN l + n) (sv_raw v)). unfold sv_raw. cbn [set_count sv_slots].
    rewrite (upd_slots_const _ (Some x)) by (try apply put_val; lia).
    rewrite H2. fold (sv_raw v). rewrite H3 at 1. rewrite takeN_app_exact by (rewrite lenN_map; reflexivity).
    rewrite map_app, <- app_assoc. f_equal. f_equal. clear. induction (N.to_nat n); cbn; congruence.
Qed.

Lemma R_alloc_fail : forall v l k x, R v l -> lenN l + k <= cap ->
  R (mk_svec (upd_slots (slot_put x) (sv_count v) k (sv_slots v)) (sv_count v)) l.
Proof.
  intros v l k x HR Hk. destruct (R_alloc v l k x HR Hk) as (A & B & rest & C).
  split; [exact A|split; [apply HR|]]. cbn [set_count sv_slots] in *.
  exists (map Some (repeat x (N.to_nat k)) ++ rest).
  rewrite app_assoc, <- map_app. exact C.
Qed.

Lemma R_shrink : forall v l n, R v l -> n <= lenN l ->
  R (set_count (mk_svec (upd_slots slot_reset (sv_count v - (sv_size v - n)) (sv_size v - n) (sv_slots v)) (sv_count v)) n) (takeN n l).
Proof.
  intros v l n HR Hn. pose proof (R_le _ _ HR) as Hle. destruct HR as (H1 & H2 & rest & H3). unfold sv_size. rewrite H2.
  replace (lenN l - (lenN l - n)) with n by lia.
  split; [|split]; cbn [set_count sv_slots sv_count].
  - rewrite upd_slots_len. exact H1.
  - rewrite lenN_takeN. lia.
  - eexists. unfold sv_raw. cbn [set_count sv_slots].
    rewrite (upd_slots_const _ None) by (try apply reset_val; lia).
    fold (sv_raw v). rewrite H3 at 1. rewrite takeN_app.
    replace (n - lenN (map Some l)) with 0 by (rewrite lenN_map; lia).
    rewrite takeN_0, app_nil_r, <- map_takeN. reflexivity.
Qed.

Lemma resize_spec : forall v l n x fail, R v l -> n <= cap ->
  exists v', R v' (if n <=? lenN l then takeN n l
                   else if match fail with Some k => k <? n - lenN l | None => false end then l
                   else l ++ repeat x (N.to_nat (n - lenN l))) /\
    sv_resize v n x fail =
      (if n <=? lenN l then Ok tt
       else if match fail with Some k => k <? n - lenN l | None => false end then Throw user_exn else Ok tt, v').
Proof.
  intros v l n x fail HR Hn. pose proof (R_le _ _ HR) as Hle. pose proof HR as (H1 & H2 & _).
  unfold sv_resize, sv_capacity. rewrite H1, (proj2 (N.ltb_ge _ _)) by lia.
  unfold sv_unsafe_resize. unfold sv_size at 1. rewrite H2.
  destruct (n <=? lenN l) eqn:E.
  - rewrite (proj2 (N.ltb_ge (lenN l) n)) by lia. unfold sv_size at 1. rewrite H2.
    destruct (n <? lenN l) eqn:E2.
    + unfold sv_destroy_last, sv_capacity. rewrite H1, H2, (proj2 (N.ltb_ge _ _)) by lia.
      eexists. split; [|reflexivity]. rewrite <- H2. apply R_shrink; [exact HR|lia].
    + eexists. split; [|reflexivity]. assert (n = lenN l) by lia. subst n.
      rewrite takeN_all by lia. destruct HR as (_ & _ & rest & H3). split; [exact H1|split; [reflexivity|]]. exists rest. exact H3.
  - rewrite (proj2 (N.ltb_lt (lenN l) n)) by lia.
    unfold sv_alloc, sv_capacity, sv_size. rewrite H1, H2, (proj2 (N.ltb_ge _ _)) by lia.
    assert (G : R (set_count (mk_svec (upd_slots (slot_put x) (sv_count v) (n - lenN l) (sv_slots v)) (sv_count v)) n)
               (l ++ repeat x (N.to_nat (n - lenN l)))).
    { replace n with (lenN l + (n - lenN l)) at 2 by lia. apply R_alloc; [exact HR|lia]. }
    destruct fail as [k|]; [destruct (k <? n - lenN l) eqn:E3|]; cbv beta iota; try (eexists; split; [|reflexivity]; rewrite H2 in G; exact G).
    eexists; split; [|reflexivity]. rewrite <- H2. apply R_alloc_fail; [exact HR|lia].
Qed.

Lemma R_push : forall v l x fail, cap < 2 ^ 63 -> R v l ->
  exists v', match vec_step cap moved veq (SPush 0 x fail) (fun _ => l) with
    | Some (ODone r, p) => sv_push_back v x fail = (r, v') /\ R v' (p 0)
    | _ => False end.
Proof.
  intros v l x fail cap_small HR. pose proof (R_le _ _ HR) as Hle. pose proof HR as (H1 & H2 & _).
  assert (HS : sz_add (sv_size v) 1 = lenN l + 1).
  { unfold sv_size. rewrite H2. apply sz_add_small. rewrite size_mod_val. change (2 ^ 63) with 9223372036854775808 in cap_small. lia. }
  assert (G : forall f, (forall k, f = Some k -> k <> 0 -> True) ->
    cap <? lenN l + 1 = true -> sv_resize v (lenN l + 1) x f = (Throw length_error, v)).
  { intros f _ Hc. unfold sv_resize, sv_capacity. rewrite H1, Hc. reflexivity. }
  unfold vec_step. cbv beta.
  destruct fail as [k|].
  - destruct (N.eq_dec k 0) as [->|Hk].
    + cbn. exists v. split; [reflexivity|exact HR].
    + assert (E1 : sv_push_back v x (Some k) = sv_resize v (lenN l + 1) x (Some (k - 1))).
      { unfold sv_push_back. rewrite HS. destruct k; [easy|reflexivity]. }
      destruct (cap <? lenN l + 1) eqn:Ec.
      * rewrite E1, G by auto. destruct k as [|p]; [easy|]. exists v. split; [reflexivity|exact HR].
      * destruct (resize_spec v l (lenN l + 1) x (Some (k - 1)) HR) as (v' & HR' & He); [lia|].
        rewrite E1, He. rewrite (proj2 (N.leb_gt _ _)) in * by lia.
        replace (lenN l + 1 - lenN l) with 1 in * by lia.
        exists v'. destruct (N.eq_dec k 1) as [->|Hk1].
        -- rewrite (proj2 (N.ltb_lt (1 - 1) 1)) in * by lia. cbn. split; [reflexivity|exact HR'].
        -- rewrite (proj2 (N.ltb_ge (k - 1) 1)) in * by lia.
           destruct k as [|[p|p|]]; try easy; cbn; (split; [reflexivity|exact HR']).
  - assert (E1 : sv_push_back v x None = sv_resize v (lenN l + 1) x None) by (unfold sv_push_back; rewrite HS; reflexivity).
    destruct (cap <? lenN l + 1) eqn:Ec.
    + rewrite E1, G by auto. exists v. split; [reflexivity|exact HR].
    + destruct (resize_spec v l (lenN l + 1) x None HR) as (v' & HR' & He); [lia|].
      rewrite E1, He. rewrite (proj2 (N.leb_gt _ _)) in * by lia.
      replace (lenN l + 1 - lenN l) with 1 in * by lia. exists v'. split; [reflexivity|exact HR'].
Qed.

Lemma R_index : forall v l k, R v l -> k < lenN l -> sv_index v k = at_list l k /\ exists x, at_list l k = Ok x.
Proof.
  intros v l k (H1 & H2 & rest & H3) Hk. unfold sv_index, at_list.
  destruct (nth_error l (N.to_nat k)) as [x|] eqn:E; [|apply nth_error_None in E; unfold lenN in Hk; lia].
  split; [|eauto].
  assert (E2 : nth_error (sv_raw v) (N.to_nat k) = Some (Some x)).
  { rewrite H3, nth_error_app1 by (rewrite map_length; unfold lenN in Hk; lia). rewrite nth_error_map, E. reflexivity. }
  unfold sv_raw in E2. rewrite nth_error_map in E2. destruct (nth_error (sv_slots v) (N.to_nat k)) as [s|]; [|discriminate].
  cbn in E2. injection E2 as ->. reflexivity.
Qed.

Lemma R_at : forall v l k, R v l -> sv_at v k = at_list l k.
Proof.
  intros v l k HR. unfold sv_at. pose proof HR as (_ & H2 & _). rewrite H2.
  destruct (lenN l <=? k) eqn:E.
  - unfold at_list. replace (nth_error l (N.to_nat k)) with (@None V); [reflexivity|].
    symmetry. apply nth_error_None. unfold lenN in E. lia.
  - apply R_index; [exact HR|lia].
Qed.

Lemma R_write : forall v l k x, R v l -> k < lenN l ->
  exists v', sv_index_write v k x = (Ok tt, v') /\ R v' (write_list l k x).
Proof.
  intros v l k x HR Hk. destruct (R_index v l k HR Hk) as [E [y Ey]]. unfold sv_index_write.
  rewrite E, Ey. eexists. split; [reflexivity|].
  pose proof (R_le _ _ HR) as Hle. destruct HR as (H1 & H2 & rest & H3).
  split; [|split]; cbn [sv_slots sv_count].
  - rewrite upd_slots_len. exact H1.
  - rewrite H2. unfold write_list. rewrite lenN_app, lenN_cons, lenN_takeN, lenN_dropN. lia.
  - exists rest. unfold sv_raw. cbn [set_count sv_slots]. unfold upd_slots. rewrite !map_app, map_map, map_takeN, map_dropN.
    fold (sv_raw v). rewrite H3. unfold write_list.
    assert (Ht : takeN k (map Some l ++ rest) = map Some (takeN k l)).
    { rewrite takeN_app. replace (k - lenN (map Some l)) with 0 by (rewrite lenN_map; lia). now rewrite takeN_0, app_nil_r, <- map_takeN. }
    assert (Hd : dropN (k + 1) (map Some l ++ rest) = map Some (dropN (k + 1) l) ++ rest).
    { rewrite dropN_app. replace (k + 1 - lenN (map Some l)) with 0 by (rewrite lenN_map; lia). now rewrite dropN_0, <- map_dropN. }
    rewrite Ht, Hd, map_app, <- app_assoc. f_equal. cbn [map app]. f_equal.
    destruct (nth_error (sv_slots v) (N.to_nat k)) as [s|] eqn:Es.
    2:{ apply nth_error_None in Es. unfold lenN in *. lia. }
    assert (Hs : exists z, sl_val s = Some z).
    { unfold sv_index in E. rewrite Es, Ey in E. destruct (sl_val s); [eauto|discriminate]. }
    replace (takeN 1 (dropN k (sv_slots v))) with [s].
    + cbn. destruct Hs as [z Hz]. unfold slot_write. rewrite Hz. reflexivity.
    + unfold takeN, dropN. change (N.to_nat 1) with 1%nat.
      clear - Es. revert Es. generalize (N.to_nat k) as n. induction (sv_slots v) as [|a m IH]; intros [|n] H; try discriminate.
      * injection H as ->. reflexivity.
      * cbn. apply IH. exact H.
Qed.

Lemma put_each_val : forall l (s : list (slot V)), (length l <= length s)%nat ->
  map sl_val (put_each l s) = map Some l ++ skipn (length l) (map sl_val s) /\ length (put_each l s) = length s.
Proof.
  induction l as [|x l IH]; intros s Hs; cbn; [destruct s; auto|]. destruct s as [|y s]; [cbn in Hs; lia|]. cbn in Hs.
  destruct (IH s) as [A B]; [lia|]. cbn. rewrite put_val, A, B. auto.
Qed.

Lemma R_of_list : forall l fail, lenN l <= cap -> match fail with Some k => lenN l <= k | None => True end -> exists t, sv_of_list cap l fail = Ok t /\ R t l.
Proof.
  intros l fail Hl Hf. unfold sv_of_list. rewrite (proj2 (N.ltb_ge _ _)) by lia.
  replace (match fail with Some k => k <? lenN l | None => false end) with false by (destruct fail; [symmetry; apply N.ltb_ge; exact Hf|reflexivity]). eexists. split; [reflexivity|].
  destruct (put_each_val l (sv_slots (sv_default cap))) as [A B].
  { cbn. rewrite repeat_length. unfold lenN in Hl. lia. }
  split; [|split; [reflexivity|]]; cbn [sv_slots sv_count].
  - unfold lenN. rewrite B. cbn. rewrite repeat_length. lia.
  - eexists. unfold sv_raw. cbn [set_count sv_slots]. rewrite A. reflexivity.
Qed.

Lemma swap_slots_val : forall a c : list (slot V), length a = length c ->
  map sl_val (fst (swap_slots a c)) = map sl_val c /\ map sl_val (snd (swap_slots a c)) = map sl_val a.
Proof.
  induction a as [|x a IH]; intros [|y c] H; try discriminate; cbn; auto.
  destruct (IH c) as [A B]; [cbn in H; lia|]. destruct (swap_slots a c) as [p q]. cbn in *. rewrite !assign_val, A, B. auto.
Qed.
Lemma copy_slots_val : forall a c : list (slot V), length a = length c ->
  fst (copy_slots a c None) = true /\ map sl_val (snd (copy_slots a c None)) = map sl_val c.
Proof.
  induction a as [|x a IH]; intros [|y c] H; try discriminate; cbn; auto.
  destruct (IH c) as [A B]; [cbn in H; lia|]. destruct (copy_slots a c None) as [p q]. cbn in *.
  destruct (sl_val y) eqn:E; cbn; rewrite ?E, ?put_val, ?reset_val, B; auto.
Qed.
Lemma move_slots_val : forall a c : list (slot V), length a = length c ->
  map sl_val (fst (move_slots moved a c)) = map sl_val c /\
  map sl_val (snd (move_slots moved a c)) = map (option_map moved) (map sl_val c).
Proof.
  induction a as [|x a IH]; intros [|y c] H; try discriminate; cbn; auto.
  destruct (IH c) as [A B]; [cbn in H; lia|]. destruct (move_slots moved a c) as [p q]. cbn in *.
  rewrite !assign_val, A, B. split; [reflexivity|]. f_equal. unfold slot_write. destruct (sl_val y) eqn:E; cbn; auto.
Qed.

Lemma vals_len : forall a c : list (slot V), map sl_val a = map sl_val c -> lenN a = lenN c.
Proof. intros a c H. apply (f_equal (@length _)) in H. rewrite !map_length in H. unfold lenN. lia. Qed.

Lemma R_transfer : forall v w l n, R v l -> map sl_val w = sv_raw v -> n = sv_count v -> R (mk_svec w n) l.
Proof.
  intros v w l n (H1 & H2 & rest & H3) Hw ->. split; [|split]; cbn [sv_slots sv_count].
  - rewrite <- H1. apply vals_len. exact Hw.
  - exact H2.
  - exists rest. unfold sv_raw at 1. cbn [set_count sv_slots]. rewrite Hw. exact H3.
Qed.

Lemma slots_len : forall v w l m, R v l -> R w m -> length (sv_slots v) = length (sv_slots w).
Proof. intros v w l m (H & _) (G & _). unfold lenN in *. lia. Qed.

Lemma R_swap : forall v w l m, R v l -> R w m -> R (fst (sv_swap v w)) m /\ R (snd (sv_swap v w)) l.
Proof.
  intros v w l m Hv Hw. destruct (swap_slots_val _ _ (slots_len _ _ _ _ Hv Hw)) as [A B].
  unfold sv_swap. destruct (swap_slots (sv_slots v) (sv_slots w)) as [p q]. cbn in *.
  split; eapply R_transfer; eauto.
Qed.
Lemma R_copy : forall v w l m, R v l -> R w m -> exists v', sv_copy_assign v w None = (Ok tt, v') /\ R v' m.
Proof.
  intros v w l m Hv Hw. destruct (copy_slots_val _ _ (slots_len _ _ _ _ Hv Hw)) as [A B].
  unfold sv_copy_assign. destruct (copy_slots (sv_slots v) (sv_slots w) None) as [p q]. cbn in *. subst p.
  eexists. split; [reflexivity|]. eapply R_transfer; eauto.
Qed.
Lemma copy_slots_len : forall (a c : list (slot V)) fail, length (snd (copy_slots a c fail)) = length a.
Proof.
  induction a as [|x a IH]; intros [|y c] fail; cbn [copy_slots]; auto.
  destruct (sl_val y) as [u|]; [destruct fail as [[|k]|]|]; auto; cbn [snd].
  - pose proof (IH c (Some (N.pos k - 1))) as H. destruct (copy_slots a c _). cbn in *. lia.
  - pose proof (IH c None) as H. destruct (copy_slots a c _). cbn in *. lia.
  - pose proof (IH c fail) as H. destruct (copy_slots a c _). cbn in *. lia.
Qed.
Lemma copy_slots_fail : forall (m : list V) (a c : list (slot V)) k rest, length a = length c -> map sl_val c = map Some m ++ rest -> k < lenN m ->
  fst (copy_slots a c (Some k)) = false /\ map sl_val (snd (copy_slots a c (Some k))) = map Some (takeN k m) ++ dropN k (map sl_val a).
Proof.
  induction m as [|z m IH]; intros a c k rest L C K; [cbn in K; lia|]. rewrite lenN_cons in K.
  destruct c as [|y c]; [discriminate|]. destruct a as [|x a]; [discriminate|]. cbn [map app] in C. injection C as Y C. cbn [length] in L.
  cbn [copy_slots]. rewrite Y. destruct k as [|k]; [split; reflexivity|].
  destruct (IH a c (N.pos k - 1) rest) as [A B]; [lia|exact C|lia|]. destruct (copy_slots a c (Some (N.pos k - 1))) as [ok r]. cbn [fst snd] in *.
  split; [exact A|]. cbn [map]. rewrite put_val, B. replace (N.pos k) with (1 + (N.pos k - 1)) at 3 4 by lia.
  unfold takeN, dropN. rewrite N2Nat.inj_add. reflexivity.
Qed.
Lemma R_copy_fail : forall v w l m k, R v l -> R w m -> k < lenN m ->
  exists v', sv_copy_assign v w (Some k) = (Throw user_exn, v') /\ R v' (takeN (lenN l) (takeN k m ++ dropN k l)).
Proof.
  intros v w l m k Hv Hw K. pose proof (slots_len _ _ _ _ Hv Hw) as L. destruct Hw as (_ & _ & restw & Ew). destruct Hv as (Hc & Hn & rest & Ev).
  destruct (copy_slots_fail m _ _ k restw L Ew K) as [A B]. pose proof (copy_slots_len (sv_slots v) (sv_slots w) (Some k)) as CL.
  unfold sv_copy_assign. destruct (copy_slots (sv_slots v) (sv_slots w) (Some k)) as [ok r]. cbn [fst snd] in *. subst ok.
  eexists. split; [reflexivity|]. change (map sl_val (sv_slots v)) with (sv_raw v) in B. rewrite Ev in B.
  assert (TK : lenN (takeN k m) = k) by (rewrite lenN_takeN; lia).
  assert (DL : lenN (dropN k l) = lenN l - k) by (rewrite lenN_dropN; lia).
  split; [cbn; unfold lenN in *; rewrite CL; exact Hc|]. split.
  { cbn [sv_count]. rewrite lenN_takeN, lenN_app, TK, DL, Hn. lia. }
  unfold sv_raw at 1. cbn [sv_slots]. rewrite B. destruct (N.leb_spec k (lenN l)) as [S|S].
  - exists rest. rewrite (takeN_all (lenN l)) by (rewrite lenN_app, TK, DL; lia). rewrite map_app, dropN_app, lenN_map.
    replace (k - lenN l) with 0 by lia. rewrite dropN_0, <- map_dropN, app_assoc. reflexivity.
  - exists (map Some (dropN (lenN l) (takeN k m)) ++ dropN k (map Some l ++ rest)).
    rewrite (dropN_all k l) by lia. rewrite app_nil_r, app_assoc, <- map_app, takeN_dropN. reflexivity.
Qed.
Lemma R_move : forall v w l m, R v l -> R w m ->
  R (fst (sv_move_assign moved v w)) m /\ R (snd (sv_move_assign moved v w)) (map moved m).
Proof.
  intros v w l m Hv Hw. destruct (move_slots_val _ _ (slots_len _ _ _ _ Hv Hw)) as [A B].
  unfold sv_move_assign. destruct (move_slots moved (sv_slots v) (sv_slots w)) as [p q]. cbn in *.
  split; [eapply R_transfer; eauto|].
  destruct Hw as (H1 & H2 & rest & H3). split; [|split]; cbn [sv_slots sv_count].
  - rewrite <- H1. apply (f_equal (@length _)) in B. rewrite !map_length in B. unfold lenN. lia.
  - rewrite H2, lenN_map. reflexivity.
  - unfold sv_raw. cbn [set_count sv_slots]. rewrite B. fold (sv_raw w). rewrite H3, map_app, map_map. eexists. rewrite map_map. reflexivity.
Qed.

Lemma R_clear : forall v l, R v l -> R (sv_clear v) [].
Proof. intros v l (H1 & H2 & rest & H3). split; [exact H1|split; [reflexivity|]]. eexists. reflexivity. Qed.

Lemma R_iterate : forall v l, R v l -> sv_iterate b v = Ok l /\ sv_riterate b v = Ok (rev l).
Proof.
  intros v l (H1 & H2 & rest & H3). unfold sv_iterate, sv_riterate, di_begin_of, di_end_of. rewrite H3, H2.
  split.
  - pose proof (di_walk_spec b (map Some l) [] l 0 rest eq_refl (N.to_nat (lenN l))) as W.
    cbn [app length Nat.add] in W. rewrite map_length in W. unfold lenN. rewrite nat_N_Z. apply W. unfold lenN. lia.
  - replace (Z.of_N (lenN l)) with (Z.of_nat (length l)) by (unfold lenN; lia). apply di_rwalk_spec. unfold lenN. lia.
Qed.

Lemma equal_walk_spec : forall (l m : list V) (pre pre2 : list (option V)) rest rest2 pi pj n fuel,
  length l = length m -> length pre = length pre2 -> fuel = length l ->
  n = Z.of_nat (length pre + length l) ->
  equal_walk veq b (pre ++ map Some l ++ rest) (pre2 ++ map Some m ++ rest2) fuel
    (mk_diter (Z.of_nat (length pre)) pi 0 n) (mk_diter n pi 0 n)
    (mk_diter (Z.of_nat (length pre)) pj 0 n) = Ok (same_list veq l m).
Proof.
  induction l as [|x l IH]; intros [|y m] pre pre2 rest rest2 pi pj n fuel Hl Hp -> ->; try discriminate.
  - cbn [length equal_walk]. unfold di_eq. cbn [di_ptr]. rewrite Nat.add_0_r, Z.eqb_refl. reflexivity.
  - cbn [length]. cbn [equal_walk]. unfold di_eq at 1. cbn [di_ptr].
    rewrite (proj2 (Z.eqb_neq _ _)) by lia.
    unfold di_deref, raw_at. cbn [di_ptr]. rewrite (proj2 (Z.ltb_ge _ _)) by lia. rewrite Nat2Z.id. cbn [map app].
    rewrite nth_error_app_at. cbn [obind].
    replace (nth_error (pre2 ++ Some y :: map Some m ++ rest2) (length pre)) with (Some (Some y))
      by (symmetry; rewrite Hp; apply nth_error_app_at). cbn [obind same_list].
    destruct (veq x y); [|reflexivity]. cbn [andb].
    unfold di_inc, di_move. cbn [di_ptr di_end di_parent di_begin]. rewrite (proj2 (Z.eqb_neq _ _)) by lia. cbn [negb].
    replace (dassert b true) with (@Ok unit tt) by (destruct b; reflexivity). cbn [obind].
    rewrite (proj2 (Z.leb_le 0 _)) by lia.
    rewrite !(proj2 (Z.leb_le _ (Z.of_N _))) by (rewrite lenN_app, lenN_cons; unfold lenN; lia). cbn [andb obind].
    specialize (IH m (pre ++ [Some x]) (pre2 ++ [Some y]) rest rest2 pi pj (Z.of_nat (length pre + S (length l))) (length l)).
    rewrite <- !app_assoc in IH. cbn [app] in IH. rewrite !app_length in IH. cbn [length] in IH.
    replace (Z.of_nat (length pre) + 1)%Z with (Z.of_nat (length pre + 1)) by lia.
    cbn [length] in Hl. apply IH; lia.
Qed.

Lemma same_list_len : forall l m : list V, length l <> length m -> same_list veq l m = false.
Proof.
  induction l as [|x l IH]; intros [|y m] H; cbn in *; try reflexivity; try lia.
  rewrite IH by lia. apply andb_false_r.
Qed.

Lemma R_eq : forall v w l m, R v l -> R w m -> sv_eq veq b v w = Ok (same_list veq l m).
Proof.
  intros v w l m (H1 & H2 & rest & H3) (G1 & G2 & rest2 & G3). unfold sv_eq. rewrite H2, G2.
  destruct (lenN l =? lenN m) eqn:E; cbn [negb].
  - rewrite H3, G3. unfold di_begin_of, di_end_of. apply N.eqb_eq in E. rewrite <- E.
    pose proof (equal_walk_spec l m [] [] rest rest2 0 1 (Z.of_N (lenN l)) (N.to_nat (lenN l))) as W.
    cbn [app length Nat.add] in W. change (Z.of_nat 0) with 0%Z in W. rewrite W; try (unfold lenN in *; lia). reflexivity.
  - rewrite same_list_len; [reflexivity|]. unfold lenN in E. lia.
Qed.

Definition RP (p : N -> svec V) (q : N -> list V) : Prop := forall i, R (p i) (q i).

Lemma RP_upd : forall p q i v l, RP p q -> R v l -> RP (upd p i v) (upd q i l).
Proof. intros p q i v l H HR k. unfold upd. destruct (k =? i); auto. Qed.
Lemma RP_upd_l : forall p q i v, RP p q -> R v (q i) -> RP (upd p i v) q.
Proof. intros p q i v H HR k. unfold upd. destruct (k =? i) eqn:E; auto. apply N.eqb_eq in E. now subst. Qed.

Lemma at_list_nil : forall k, at_list (@nil V) k = Throw out_of_range.
Proof. intros k. unfold at_list. destruct (N.to_nat k); reflexivity. Qed.

Lemma back_spec : forall v l, cap < 2 ^ 63 -> R v l -> sv_back v = match rev l with x :: _ => Ok x | [] => Throw out_of_range end.
Proof.
  intros v l cap_small HR. pose proof (R_le _ _ HR) as Hle. pose proof HR as (H1 & H2 & _).
  change (2 ^ 63) with 9223372036854775808 in cap_small.
  unfold sv_back. rewrite (R_at _ _ _ HR). unfold sv_size. rewrite H2. clear HR.
  destruct l as [|x l] using rev_ind.
  - apply at_list_nil.
  - rewrite rev_app_distr. cbn [rev app]. unfold sz_sub. rewrite size_mod_val. rewrite lenN_app in *. change (lenN [x]) with 1 in *.
    change (1 mod 18446744073709551616) with 1.
    replace (lenN l + 1 + 18446744073709551616 - 1) with (lenN l + 1 * 18446744073709551616) by lia.
    rewrite N.mod_add by lia. rewrite N.mod_small by lia. unfold at_list.
    replace (N.to_nat (lenN l)) with (length l) by (unfold lenN; lia). rewrite nth_error_app_at. reflexivity.
Qed.

Lemma step_refines : forall o p q x q', cap < 2 ^ 63 -> RP p q -> vec_step cap moved veq o q = Some (x, q') ->
  exists p', sv_step b cap moved veq o p = (x, p') /\ RP p' q'.
Proof.
  intros o p q x q' cap_small H E. destruct o; cbn [sv_step].
  - (* push *)
    destruct (R_push (p i) (q i) x0 fail cap_small (H i)) as [v' Hv].
    cbn [vec_step] in E. cbv beta delta [vec_step] iota in Hv. unfold on1.
    destruct fail as [[|[k|k|]]|]; cbn iota in *; try (injection E as <- <-; destruct Hv as [-> Hv]; eexists; split; [reflexivity|]; cbn [fst snd]; apply RP_upd_l; auto; fail);
    destruct (cap <? lenN (q i) + 1); injection E as <- <-; destruct Hv as [-> Hv]; eexists; (split; [reflexivity|]); cbn [fst snd];
      try (apply RP_upd_l; auto; fail); apply RP_upd; auto; unfold upd in Hv; change (0 =? 0) with true in Hv; exact Hv.
  - (* resize *)
    cbn [vec_step] in E. unfold on1. destruct (cap <? n) eqn:Ec.
    + injection E as <- <-. unfold sv_resize, sv_capacity. rewrite (proj1 (H i)), Ec. eexists. split; [reflexivity|]. cbn [fst snd]. apply RP_upd_l; [exact H|apply H].
    + destruct (resize_spec (p i) (q i) n x0 fail (H i)) as (v' & HR & ->); [lia|]. cbn [fst snd].
      destruct (n <=? lenN (q i)); [|destruct fail as [k|]; [destruct (k <? n - lenN (q i))|]];
        injection E as <- <-; eexists; (split; [reflexivity|]); first [apply RP_upd; assumption|apply RP_upd_l; assumption].
  - (* clear *) injection E as <- <-. eexists; split; [reflexivity|]. cbn [fst snd]. apply RP_upd; auto. eapply R_clear; eauto.
  - (* swap *) injection E as <- <-. destruct (R_swap _ _ _ _ (H i) (H j)) as [A B]. unfold on2. eexists; split; [reflexivity|].
    apply RP_upd; auto. apply RP_upd; auto.
  - (* write at *) cbn [vec_step] in E. unfold on1, sv_at_write. pose proof (H i) as (_ & Hc & _). rewrite Hc.
    destruct (pos <? lenN (q i)) eqn:Ep; injection E as <- <-.
    + rewrite (proj2 (N.leb_gt _ _)) by lia. destruct (R_write _ _ pos x0 (H i)) as (v' & -> & HR); [lia|].
      eexists; split; [reflexivity|]. apply RP_upd; auto.
    + rewrite (proj2 (N.leb_le _ _)) by lia. eexists; split; [reflexivity|]. apply RP_upd_l; auto. apply H.
  - (* write idx *) cbn [vec_step] in E. unfold on1. destruct (pos <? lenN (q i)) eqn:Ep; [|discriminate]. injection E as <- <-.
    destruct (R_write _ _ pos x0 (H i)) as (v' & -> & HR); [lia|]. eexists; split; [reflexivity|]. apply RP_upd; auto.
  - (* init *) cbn [vec_step] in E. destruct (cap <? lenN l) eqn:Ec.
    + injection E as <- <-. unfold sv_of_list. rewrite Ec. eexists; split; [reflexivity|]. exact H.
    + assert (G : match fail with Some k => lenN l <= k | None => True end -> exists p', match sv_of_list cap l fail with
          | Ok t => on1 p i (Ok tt, fst (sv_move_assign moved (p i) t)) | Throw e => (ODone (Throw e), p) | _ => (ODone UB, p) end = (ODone (Ok tt), p') /\
          RP p' (upd q i l)).
      { intros F. destruct (R_of_list l fail) as (t & -> & Ht); [lia|exact F|]. unfold on1. eexists; split; [reflexivity|]. cbn [fst snd].
        apply RP_upd; auto. apply (R_move _ _ _ _ (H i) Ht). }
      destruct fail as [k|]; [destruct (k <? lenN l) eqn:Ek|]; injection E as <- <-; try (apply G; lia || exact I).
      unfold sv_of_list. rewrite Ec, Ek. eexists; split; [reflexivity|]. exact H.
  - (* copy *) cbn [vec_step] in E. destruct fail as [k|].
    { destruct (k <? lenN (q j)) eqn:Ek; [|discriminate]. injection E as <- <-.
      destruct (R_copy_fail _ _ _ _ k (H i) (H j)) as (v' & Hv & HR); [lia|]. unfold on1. rewrite Hv. eexists; split; [reflexivity|]. apply RP_upd; auto. }
    injection E as <- <-.
    destruct (R_copy _ _ _ _ (H i) (H j)) as (v' & Hv & HR). unfold on1. rewrite Hv. eexists; split; [reflexivity|]. apply RP_upd; auto.
  - (* move *) cbn [vec_step] in E. destruct (i =? j).
    { injection E as <- <-. destruct (R_move _ _ _ _ (H i) (H i)) as [_ B]. unfold on1, sv_self_move.
      eexists; split; [reflexivity|]. apply RP_upd; auto. }
    injection E as <- <-.
    destruct (R_move _ _ _ _ (H i) (H j)) as [A B]. unfold on2. eexists; split; [reflexivity|]. apply RP_upd; auto. apply RP_upd; auto.
  - injection E as <- <-. unfold sv_size. rewrite (proj1 (proj2 (H i))). eauto.
  - injection E as <- <-. unfold sv_empty. rewrite (proj1 (proj2 (H i))). eexists; split; [|exact H]. destruct (q i); [reflexivity|].
    rewrite lenN_cons. do 3 f_equal. apply N.eqb_neq. lia.
  - injection E as <- <-. rewrite (R_at _ _ _ (H i)). eauto.
  - cbn [vec_step] in E. destruct (pos <? lenN (q i)) eqn:Ep; [|discriminate]. injection E as <- <-.
    rewrite (proj1 (R_index _ _ pos (H i) ltac:(lia))). eauto.
  - injection E as <- <-. unfold sv_front. rewrite (R_at _ _ _ (H i)). eauto.
  - injection E as <- <-. rewrite (back_spec _ _ cap_small (H i)). eauto.
  - injection E as <- <-. rewrite (proj1 (R_iterate _ _ (H i))). eauto.
  - injection E as <- <-. rewrite (proj2 (R_iterate _ _ (H i))). eauto.
  - injection E as <- <-. rewrite (R_eq _ _ _ _ (H i) (H j)). eauto.
Qed.

Lemma run_refines : forall ops p q xs q', cap < 2 ^ 63 -> RP p q -> vec_run cap moved veq ops q = Some (xs, q') ->
  exists p', sv_run b cap moved veq ops p = (xs, p') /\ RP p' q'.
Proof.
  induction ops as [|o ops IH]; intros p q xs q' cap_small H E; cbn [vec_run sv_run] in *.
  - injection E as <- <-. eauto.
  - destruct (vec_step cap moved veq o q) as [[x q1]|] eqn:E1; [|discriminate].
    destruct (vec_run cap moved veq ops q1) as [[ys q2]|] eqn:E2; [|discriminate]. injection E as <- <-.
    destruct (step_refines _ _ _ _ _ cap_small H E1) as (p1 & -> & H1). destruct (IH _ _ _ _ cap_small H1 E2) as (p2 & -> & H2). eauto.
Qed.

Lemma R_shows : forall v l, R v l -> shows cap v l.
Proof.
  intros v l HR. split; [apply HR|]. split; [eapply R_le; eauto|]. intros k. apply R_at; auto.
Qed.

Lemma sv_refines : forall ops xs q, cap < 2 ^ 63 -> vec_run cap moved veq ops (fun _ => []) = Some (xs, q) ->
  exists p, sv_run b cap moved veq ops (sv_start cap) = (xs, p) /\ forall i, shows cap (p i) (q i).
Proof.
  intros ops xs q cap_small E. destruct (run_refines ops (sv_start cap) (fun _ => []) xs q) as (p & Hp & HR); auto.
  - intros i. apply R_default.
  - exists p. split; auto. intros i. apply R_shows, HR.
Qed.
End SVProofs.
