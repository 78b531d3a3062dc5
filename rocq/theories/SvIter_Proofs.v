From Coq Require Import List. Import ListNotations.
From Verif Require Import Base BaseFacts Iter_Model Sv_Model Coll_Spec Sv_Proofs SvIter_Model SvIter_Spec.

Section Proofs.
Context {V : Type}.
Variables (b : build) (cap : N) (moved : V -> V) (veq : V -> V -> bool).
Hypothesis small : cap < 2 ^ 63.

Definition same_place (d : option diter) (a : option place) : Prop :=
  d = match a with Some a => Some (mk_diter (Z.of_N (place_at a)) (place_vec a) 0 (Z.of_N (place_size a))) | None => None end.
Definition HR (s : held) (t : lists) : Prop := RP (V:=V) cap (fst s) (fst t) /\ forall k, same_place (snd s k) (snd t k).

Lemma HR_set s t k d a : HR s t -> same_place (Some d) (Some a) -> HR (fst s, upd (snd s) k (Some d)) (set_place t k a).
Proof. intros [A B] C. split; [exact A|]. cbn [snd set_place]. intros m. unfold upd. destruct (m =? k); auto. Qed.
Lemma count_of (s : held) (t : lists) i : HR s t -> sv_count (fst s i) = lenN (fst t i) /\ lenN (sv_raw (fst s i)) = cap /\ lenN (fst t i) <= cap.
Proof. intros [A _]. pose proof (A i) as H. pose proof (R_le _ _ _ H). destruct H as (H1 & H2 & _). rewrite raw_len. auto. Qed.
Lemma elem_of (s : held) (t : lists) i k v : HR s t -> nth_error (fst t i) k = Some v -> nth_error (sv_raw (fst s i)) k = Some (Some v).
Proof.
  intros [A _] E. destruct (A i) as (_ & _ & rest & H). rewrite H.
  assert (L : (k < length (fst t i))%nat) by (apply nth_error_Some; congruence).
  rewrite nth_error_app1 by (rewrite map_length; exact L). rewrite nth_error_map, E. reflexivity.
Qed.

(** A move to a reachable index. *)
Lemma move_ok (s : held) (t : lists) a d off : HR s t -> d = mk_diter (Z.of_N (place_at a)) (place_vec a) 0 (Z.of_N (place_size a)) ->
  reachable (fst t) a (Z.of_N (place_at a) + off) = true ->
  exists d', di_move (pointee (fst s) d) d (Z.of_N (place_at a) + off) = Ok d' /\
    same_place (Some d') (Some (goto a (Z.of_N (place_at a) + off))).
Proof.
  intros H -> R. unfold reachable in R. apply andb_true_iff in R. destruct R as [R1 R2]. apply Z.leb_le in R1, R2.
  destruct (count_of s t (place_vec a) H) as (_ & L & C). unfold di_move, pointee. cbn [di_parent di_begin di_end]. rewrite L.
  rewrite (proj2 (Z.leb_le _ _) R1), (proj2 (Z.leb_le _ _)) by lia. cbn [andb].
  eexists. split; [reflexivity|]. unfold same_place, goto. cbn [place_at place_vec place_size]. rewrite Z2N.id by exact R1. reflexivity.
Qed.

Definition flag (p : bool) : bool := match b with Release => true | _ => p end.
Lemma dassert_flag p : dassert b p = if flag p then Ok tt else failure b.
Proof. unfold flag. destruct b, p; reflexivity. Qed.
Lemma flag_true : flag true = true.
Proof. unfold flag. now destruct b. Qed.

Lemma guarded_move (s : held) (t : lists) a d off (f : list (option V) -> diter -> outcome diter) (bad : bool) :
  HR s t -> d = mk_diter (Z.of_N (place_at a)) (place_vec a) 0 (Z.of_N (place_size a)) ->
  reachable (fst t) a (Z.of_N (place_at a) + off) = true ->
  (f (pointee (fst s) d) d = if flag (negb bad) then di_move (pointee (fst s) d) d (Z.of_N (place_at a) + off) else failure b) ->
  if flag (negb bad) then exists d', f (pointee (fst s) d) d = Ok d' /\ same_place (Some d') (Some (goto a (Z.of_N (place_at a) + off)))
  else f (pointee (fst s) d) d = failure b.
Proof.
  intros H D R F. rewrite F. destruct (flag (negb bad)); [|reflexivity].
  exact (move_ok s t a d off H D R).
Qed.
Lemma inc_move (arr : list (option V)) a : di_inc b arr (mk_diter (Z.of_N (place_at a)) (place_vec a) 0 (Z.of_N (place_size a))) =
  if flag (negb (place_at a =? place_size a)) then di_move arr (mk_diter (Z.of_N (place_at a)) (place_vec a) 0 (Z.of_N (place_size a))) (Z.of_N (place_at a) + 1) else failure b.
Proof.
  unfold di_inc. cbn [di_ptr di_end]. rewrite dassert_flag.
  replace (Z.of_N (place_at a) =? Z.of_N (place_size a))%Z with (place_at a =? place_size a) by (destruct (N.eqb_spec (place_at a) (place_size a)); lia).
  destruct (flag _); [reflexivity|]. destruct b; reflexivity.
Qed.
Lemma dec_move (arr : list (option V)) a : (0 <= Z.of_N (place_at a) - 1)%Z -> di_dec b arr (mk_diter (Z.of_N (place_at a)) (place_vec a) 0 (Z.of_N (place_size a))) =
  di_move arr (mk_diter (Z.of_N (place_at a)) (place_vec a) 0 (Z.of_N (place_size a))) (Z.of_N (place_at a) + -1).
Proof.
  intros L. unfold di_dec. cbn [di_ptr di_begin]. rewrite dassert_flag.
  replace (Z.of_N (place_at a) =? 0)%Z with false by lia. replace (flag (negb false)) with true by (symmetry; exact flag_true). reflexivity.
Qed.
Lemma jump_move (arr : list (option V)) a off (f : build -> list (option V) -> diter -> Z -> outcome diter) sign :
  ((f = di_add_assign \/ f = di_add) /\ sign = off) \/ ((f = di_sub_assign \/ f = di_sub) /\ sign = (- off)%Z) ->
  (0 <= Z.of_N (place_at a) + sign)%Z ->
  f b arr (mk_diter (Z.of_N (place_at a)) (place_vec a) 0 (Z.of_N (place_size a))) off =
  if flag (negb (Z.of_N (place_size a) <=? Z.of_N (place_at a) + sign)%Z)
  then di_move arr (mk_diter (Z.of_N (place_at a)) (place_vec a) 0 (Z.of_N (place_size a))) (Z.of_N (place_at a) + sign) else failure b.
Proof.
  intros F L. assert (T : flag true = true) by exact flag_true.
  assert (U : negb (Z.of_N (place_size a) <=? Z.of_N (place_at a) + sign)%Z = (Z.of_N (place_at a) + sign <? Z.of_N (place_size a))%Z).
  { rewrite Z.leb_antisym. apply negb_involutive. }
  rewrite U. assert (Q : forall p (x : outcome diter), (let! _ := (if flag p then Ok tt else failure b) in x) = if flag p then x else failure b).
  { intros p x. destruct (flag p); [reflexivity|]. destruct b; reflexivity. }
  destruct F as [[[-> | ->] ->]|[[-> | ->] S]].
  - unfold di_add_assign. cbn [di_ptr di_begin di_end]. rewrite !dassert_flag, !Q. rewrite (proj2 (Z.leb_le _ _) L), T. destruct (flag (_ <? _)%Z); reflexivity.
  - unfold di_add, di_add_assign. cbn [di_ptr di_begin di_end]. rewrite !dassert_flag, !Q. rewrite (proj2 (Z.leb_le _ _) L), T. destruct (flag (_ <? _)%Z); reflexivity.
  - replace (Z.of_N (place_at a) + sign)%Z with (Z.of_N (place_at a) - off)%Z in * by lia.
    unfold di_sub_assign. cbn [di_ptr di_begin di_end]. rewrite !dassert_flag, !Q. rewrite (proj2 (Z.leb_le _ _) L), T. destruct (flag (_ <? _)%Z); reflexivity.
  - replace (Z.of_N (place_at a) + sign)%Z with (Z.of_N (place_at a) - off)%Z in * by lia.
    unfold di_sub, di_sub_assign. cbn [di_ptr di_begin di_end]. rewrite !dassert_flag, !Q. rewrite (proj2 (Z.leb_le _ _) L), T. destruct (flag (_ <? _)%Z); reflexivity.
Qed.

Lemma move_it_ok (s : held) (t : lists) k l a off f (bad : bool) : HR s t -> snd t k = Some a ->
  reachable (fst t) a (Z.of_N (place_at a) + off) = true ->
  (forall arr, f arr (mk_diter (Z.of_N (place_at a)) (place_vec a) 0 (Z.of_N (place_size a))) =
    if flag (negb bad) then di_move arr (mk_diter (Z.of_N (place_at a)) (place_vec a) 0 (Z.of_N (place_size a))) (Z.of_N (place_at a) + off) else failure b) ->
  exists s', move_it s k l f = (if flag (negb bad) then Ok tt else failure b, s') /\
    HR s' (if flag (negb bad) then set_place t l (goto a (Z.of_N (place_at a) + off)) else t).
Proof.
  intros H K R F. pose proof (proj2 H k) as D. rewrite K in D. unfold same_place in D. unfold move_it. rewrite D.
  pose proof (guarded_move s t a _ off f bad H eq_refl R (F _)) as G. destruct (flag (negb bad)).
  - destruct G as (d' & G & S). rewrite G. eexists. split; [reflexivity|]. now apply HR_set.
  - rewrite G. exists s. split; [destruct b; reflexivity|exact H].
Qed.
Lemma post_it_ok (s : held) (t : lists) k l a off f (bad : bool) : HR s t -> snd t k = Some a ->
  reachable (fst t) a (Z.of_N (place_at a) + off) = true ->
  (forall arr, f arr (mk_diter (Z.of_N (place_at a)) (place_vec a) 0 (Z.of_N (place_size a))) =
    if flag (negb bad) then di_move arr (mk_diter (Z.of_N (place_at a)) (place_vec a) 0 (Z.of_N (place_size a))) (Z.of_N (place_at a) + off) else failure b) ->
  exists s', post_it s k l f = (if flag (negb bad) then Ok tt else failure b, s') /\
    HR s' (if flag (negb bad) then set_place (set_place t k (goto a (Z.of_N (place_at a) + off))) l a else t).
Proof.
  intros H K R F. pose proof (proj2 H k) as D. rewrite K in D. unfold same_place in D. unfold post_it. rewrite D.
  destruct (move_it_ok s t k k a off f bad H K R F) as (s' & M & G). rewrite M. destruct (flag (negb bad)).
  - eexists. split; [reflexivity|]. apply HR_set; [exact G|reflexivity].
  - exists s'. split; [destruct b; reflexivity|exact G].
Qed.

Lemma built (t : lists) o x t' x' t'' : list_step cap moved veq o t = Some (x, t') ->
  build_step cap moved veq b o t = Some (x', t'') ->
  (x', t'') = if flag (negb (reported o t)) then (x, t') else (report b o, t).
Proof.
  intros E. unfold build_step. rewrite E. unfold flag. destruct b; [|destruct (reported o t)..]; cbn [negb]; congruence.
Qed.
Lemma raw_elem (s : held) (t : lists) a z v : HR s t -> element (fst t) a z = Some v ->
  raw_at (sv_raw (fst s (place_vec a))) z = Ok (Some v).
Proof.
  unfold element, on_element. intros H E. destruct ((0 <=? z) && (z <? _))%Z eqn:L; [|discriminate].
  apply andb_true_iff in L. destruct L as [L1 L2]. apply Z.leb_le in L1.
  unfold raw_at. replace (z <? 0)%Z with false by lia. rewrite (elem_of s t _ _ v H E). reflexivity.
Qed.

Lemma it_step_refines o (s : held) (t : lists) x t' : HR s t -> build_step cap moved veq b o t = Some (x, t') ->
  exists s', iv_step b cap moved veq o s = (x, s') /\ HR s' t'.
Proof.
  intros H E. pose proof E as E0. unfold build_step in E0. destruct (list_step cap moved veq o t) as [[y t1]|] eqn:L; [|discriminate]. clear E0.
  pose proof (built t o y t1 x t' L E) as B. clear E.
  destruct o; cbn [list_step moves] in L; cbn [reported moves] in B; cbn [iv_step].
  - (* vector *) destruct (vec_step cap moved veq o (fst t)) as [[z q]|] eqn:W; [|discriminate]. injection L as <- <-.
    destruct (step_refines b cap moved veq o (fst s) (fst t) z q small (proj1 H) W) as (p' & P & Q). rewrite P.
    replace (flag (negb false)) with true in B by (symmetry; exact flag_true). injection B as -> ->.
    eexists. split; [reflexivity|]. split; [exact Q|apply H].
  - injection L as <- <-. replace (flag (negb false)) with true in B by (symmetry; exact flag_true). injection B as -> ->.
    eexists. split; [reflexivity|]. apply HR_set; [exact H|]. unfold sv_begin. rewrite (proj1 (count_of s t i H)). reflexivity.
  - injection L as <- <-. replace (flag (negb false)) with true in B by (symmetry; exact flag_true). injection B as -> ->.
    eexists. split; [reflexivity|]. apply HR_set; [exact H|]. unfold sv_end. rewrite (proj1 (count_of s t i H)). reflexivity.
  - (* ++ *) destruct (snd t k) as [a|] eqn:K; [|discriminate]. destruct (reachable _ _ _) eqn:R; [|discriminate]. injection L as <- <-.
    destruct (move_it_ok s t k k a 1 (di_inc b) _ H K R (fun arr => inc_move arr a)) as (s' & M & G). rewrite M. cbn [fst snd].
    destruct (flag _); injection B as -> ->; eauto.
  - (* -- *) destruct (snd t k) as [a|] eqn:K; [|discriminate]. destruct (reachable _ _ _) eqn:R; [|discriminate]. injection L as <- <-.
    assert (T : flag (negb false) = true) by exact flag_true.
    destruct (move_it_ok s t k k a (-1) (di_dec b) false H K R) as (s' & M & G).
    { intros arr. rewrite T. apply dec_move. unfold reachable in R. lia. }
    rewrite M, T in *. injection B as -> ->. cbn [fst snd]. eauto.
  - (* it++ *) destruct (snd t k) as [a|] eqn:K; [|discriminate]. destruct (reachable _ _ _) eqn:R; [|discriminate]. injection L as <- <-.
    destruct (post_it_ok s t k l a 1 (di_inc b) _ H K R (fun arr => inc_move arr a)) as (s' & M & G). rewrite M. cbn [fst snd].
    destruct (flag _); injection B as -> ->; eauto.
  - (* it-- *) destruct (snd t k) as [a|] eqn:K; [|discriminate]. destruct (reachable _ _ _) eqn:R; [|discriminate]. injection L as <- <-.
    assert (T : flag (negb false) = true) by exact flag_true.
    destruct (post_it_ok s t k l a (-1) (di_dec b) false H K R) as (s' & M & G).
    { intros arr. rewrite T. apply dec_move. unfold reachable in R. lia. }
    rewrite M, T in *. injection B as -> ->. cbn [fst snd]. eauto.
  - destruct (snd t k) as [a|] eqn:K; [|discriminate]. destruct (reachable _ _ _) eqn:R; [|discriminate]. injection L as <- <-.
    destruct (move_it_ok s t k k a off (fun arr it => di_add_assign b arr it off) _ H K R (fun arr => jump_move arr a off di_add_assign off ltac:(auto) ltac:(unfold reachable in R; lia))) as (s' & M & G).
    rewrite M. cbn [fst snd]. destruct (flag _); injection B as -> ->; eauto.
  - destruct (snd t k) as [a|] eqn:K; [|discriminate]. destruct (reachable _ _ _) eqn:R; [|discriminate]. injection L as <- <-.
    destruct (move_it_ok s t k k a (- off) (fun arr it => di_sub_assign b arr it off) _ H K R (fun arr => jump_move arr a off di_sub_assign (- off)%Z ltac:(auto) ltac:(unfold reachable in R; lia))) as (s' & M & G).
    rewrite M. cbn [fst snd]. destruct (flag _); injection B as -> ->; eauto.
  - destruct (snd t k) as [a|] eqn:K; [|discriminate]. destruct (reachable _ _ _) eqn:R; [|discriminate]. injection L as <- <-.
    destruct (move_it_ok s t k l a off (fun arr it => di_add b arr it off) _ H K R (fun arr => jump_move arr a off di_add off ltac:(auto) ltac:(unfold reachable in R; lia))) as (s' & M & G).
    rewrite M. cbn [fst snd]. destruct (flag _); injection B as -> ->; eauto.
  - destruct (snd t k) as [a|] eqn:K; [|discriminate]. destruct (reachable _ _ _) eqn:R; [|discriminate]. injection L as <- <-.
    destruct (move_it_ok s t k l a (- off) (fun arr it => di_sub b arr it off) _ H K R (fun arr => jump_move arr a off di_sub (- off)%Z ltac:(auto) ltac:(unfold reachable in R; lia))) as (s' & M & G).
    rewrite M. cbn [fst snd]. destruct (flag _); injection B as -> ->; eauto.
  - (* read *) destruct (snd t k) as [a|] eqn:K; [|discriminate]. destruct (element _ _ _) as [v|] eqn:R; [|discriminate]. injection L as <- <-.
    replace (flag (negb false)) with true in B by (symmetry; exact flag_true). injection B as -> ->.
    pose proof (proj2 H k) as D. rewrite K in D. unfold same_place in D. unfold use1. rewrite D. unfold di_deref, pointee. cbn [di_ptr di_parent].
    rewrite (raw_elem s t a _ v H R). eauto.
  - (* write *) destruct (snd t k) as [a|] eqn:K; [|discriminate]. destruct (on_element _ _ _) eqn:R; [|discriminate]. injection L as <- <-.
    replace (flag (negb false)) with true in B by (symmetry; exact flag_true). injection B as -> ->.
    pose proof (proj2 H k) as D. rewrite K in D. unfold same_place in D. rewrite D. unfold write_it. cbn [di_ptr di_parent].
    replace (Z.of_N (place_at a) <? 0)%Z with false by lia. rewrite N2Z.id. unfold on_element in R.
    destruct (R_write cap moved veq (fst s (place_vec a)) (fst t (place_vec a)) (place_at a) x0 (proj1 H _)) as (v' & W & Q); [lia|].
    rewrite W. eexists. split; [reflexivity|]. split; [|apply H]. cbn [fst]. apply RP_upd; [apply H|exact Q].
  - (* it[off] *) destruct (snd t k) as [a|] eqn:K; [|discriminate]. destruct (element _ _ _) as [v|] eqn:R; [|discriminate]. injection L as <- <-.
    pose proof (proj2 H k) as D. rewrite K in D. unfold same_place in D. unfold use1. rewrite D. unfold di_index, pointee. cbn [di_ptr di_parent di_end].
    rewrite (raw_elem s t a _ v H R). rewrite !dassert_flag. cbn [obind report] in *. unfold flag in *.
    destruct b; cbn [obind].
    + injection B as -> ->. eauto.
    + destruct (off <? 0)%Z eqn:E1; [rewrite (proj2 (Z.leb_gt _ _)) by lia|rewrite (proj2 (Z.leb_le _ _)) by lia];
        destruct (Z.of_N (place_size a) <=? Z.of_N (place_at a) + off)%Z eqn:E2;
        [rewrite (proj2 (Z.ltb_ge (Z.of_N (place_at a) + off) _)) by lia|rewrite (proj2 (Z.ltb_lt (Z.of_N (place_at a) + off) _)) by lia
        |rewrite (proj2 (Z.ltb_ge (Z.of_N (place_at a) + off) _)) by lia|rewrite (proj2 (Z.ltb_lt (Z.of_N (place_at a) + off) _)) by lia];
        cbn [orb negb obind failure] in *; injection B as -> ->; eauto.
    + destruct (off <? 0)%Z eqn:E1; [rewrite (proj2 (Z.leb_gt _ _)) by lia|rewrite (proj2 (Z.leb_le _ _)) by lia];
        destruct (Z.of_N (place_size a) <=? Z.of_N (place_at a) + off)%Z eqn:E2;
        [rewrite (proj2 (Z.ltb_ge (Z.of_N (place_at a) + off) _)) by lia|rewrite (proj2 (Z.ltb_lt (Z.of_N (place_at a) + off) _)) by lia
        |rewrite (proj2 (Z.ltb_ge (Z.of_N (place_at a) + off) _)) by lia|rewrite (proj2 (Z.ltb_lt (Z.of_N (place_at a) + off) _)) by lia];
        cbn [orb negb obind failure] in *; injection B as -> ->; eauto.
  - destruct (snd t k) as [a|] eqn:K; [|discriminate]. destruct (snd t l) as [c|] eqn:K2; [|discriminate].
    destruct (place_vec a =? place_vec c) eqn:R; [|discriminate]. injection L as <- <-.
    replace (flag (negb false)) with true in B by (symmetry; exact flag_true). injection B as -> ->.
    pose proof (proj2 H k) as D. rewrite K in D. pose proof (proj2 H l) as D2. rewrite K2 in D2. unfold same_place in D, D2.
    unfold use2. rewrite D, D2. unfold di_diff. cbn [di_ptr di_parent]. rewrite R. rewrite dassert_flag.
    rewrite flag_true. cbn [obind]. eauto.
  - destruct (snd t k) as [a|] eqn:K; [|discriminate]. destruct (snd t l) as [c|] eqn:K2; [|discriminate].
    destruct (place_vec a =? place_vec c) eqn:R; [|discriminate]. injection L as <- <-.
    replace (flag (negb false)) with true in B by (symmetry; exact flag_true). injection B as -> ->.
    pose proof (proj2 H k) as D. rewrite K in D. pose proof (proj2 H l) as D2. rewrite K2 in D2. unfold same_place in D, D2.
    unfold use2. rewrite D, D2. unfold di_cmp. cbn [di_ptr di_parent]. rewrite R. rewrite dassert_flag.
    rewrite flag_true. cbn [obind]. rewrite N2Z.inj_compare. eauto.
  - destruct (snd t k) as [a|] eqn:K; [|discriminate]. destruct (snd t l) as [c|] eqn:K2; [|discriminate].
    destruct (place_vec a =? place_vec c) eqn:R; [|discriminate]. injection L as <- <-.
    replace (flag (negb false)) with true in B by (symmetry; exact flag_true). injection B as -> ->.
    pose proof (proj2 H k) as D. rewrite K in D. pose proof (proj2 H l) as D2. rewrite K2 in D2. unfold same_place in D, D2.
    unfold use2. rewrite D, D2. unfold di_eq. cbn [di_ptr].
    replace (Z.of_N (place_at a) =? Z.of_N (place_at c))%Z with (place_at a =? place_at c) by (destruct (N.eqb_spec (place_at a) (place_at c)); lia).
    eauto.
Qed.
Lemma it_run_refines ops : forall (s : held) (t : lists) xs t', HR s t -> list_run (build_step cap moved veq b) ops t = Some (xs, t') ->
  exists s', iv_run b cap moved veq ops s = (xs, s') /\ HR s' t'.
Proof.
  induction ops as [|o ops IH]; intros s t xs t' H E; cbn [list_run iv_run] in *.
  - injection E as <- <-. eauto.
  - destruct (build_step cap moved veq b o t) as [[x t1]|] eqn:E1; [|discriminate].
    destruct (list_run (build_step cap moved veq b) ops t1) as [[ys t2]|] eqn:E2; [|discriminate]. injection E as <- <-.
    destruct (it_step_refines o s t x t1 H E1) as (s1 & S1 & H1). destruct (IH s1 t1 ys t2 H1 E2) as (s2 & S2 & H2).
    rewrite S1, S2. eauto.
Qed.
Lemma it_refines ops xs t' : list_run (build_step cap moved veq b) ops no_elements = Some (xs, t') ->
  exists s', iv_run b cap moved veq ops (iv_start cap) = (xs, s') /\ forall i, shows cap (fst s' i) (fst t' i).
Proof.
  intros E. destruct (it_run_refines ops (iv_start cap) no_elements xs t') as (s' & S & H); [|exact E|].
  - split; [intros i; apply R_default|]. intros k. reflexivity.
  - exists s'. split; [exact S|]. intros i. pose proof (proj1 H i) as HR. split; [apply HR|]. split; [eapply R_le; eauto|]. intros k. now apply (R_at cap moved veq).
Qed.
End Proofs.

Lemma release_refines (V : Type) cap (moved : V -> V) veq ops xs t' : cap < 2 ^ 63 -> list_run (list_step cap moved veq) ops no_elements = Some (xs, t') ->
  exists s', iv_run Release cap moved veq ops (iv_start cap) = (xs, s') /\ forall i, shows cap (fst s' i) (fst t' i).
Proof.
  intros S E. apply (it_refines Release cap moved veq S ops xs t'). rewrite <- E. generalize (@no_elements V). clear.
  induction ops as [|o ops IH]; intros t; cbn [list_run]; [reflexivity|]. unfold build_step at 1.
  destruct (list_step cap moved veq o t) as [[x t1]|]; [rewrite IH|]; reflexivity.
Qed.
Lemma builds_refine (V : Type) (b : build) cap (moved : V -> V) veq ops xs t' : cap < 2 ^ 63 -> list_run (build_step cap moved veq b) ops no_elements = Some (xs, t') ->
  exists s', iv_run b cap moved veq ops (iv_start cap) = (xs, s') /\ forall i, shows cap (fst s' i) (fst t' i).
Proof. intros S E. exact (it_refines b cap moved veq S ops xs t' E). Qed.

Lemma debug_refuted b : b <> Release -> exists ops1 ops2 : list (iop N),
  let it_fails ops := exists xs s, list_run (list_step 3 (fun x => x) N.eqb) ops no_elements = Some (xs, s) /\
    last xs (OMove UB) = OMove (Ok tt) /\
    last (fst (iv_run b 3 (fun x => x) N.eqb ops (iv_start 3))) (OMove UB) = OMove (failure b) in
  it_fails ops1 /\ it_fails ops2.
Proof.
  intros B. exists [IVec (SPush 0 7 None); IBegin 0 0; IVec (SPush 0 8 None); IInc 0; IInc 0],
    [IVec (SPush 0 7 None); IBegin 0 0; IVec (SPush 0 8 None); IJump 0 1].
  split; (destruct b; [contradiction|..]); do 2 eexists;
    (split; [match goal with |- ?x = _ => let y := eval vm_compute in x in exact (eq_refl y) end|split; reflexivity]).
Qed.
