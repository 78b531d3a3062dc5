(** Proofs about random UUIDs. *)
From Coq Require Import List NArith Lia. Import ListNotations.
From Verif Require Import Base Io_Model Uuid_Model UuidGen_Model UuidGen_Spec.
Local Open Scope N_scope.

(** ** The engine *)

Lemma mt_seed_words_length : forall k x i, length (mt_seed_words k x i) = k.
Proof. induction k; intros; cbn; [reflexivity|now rewrite IHk]. Qed.

Lemma mt_seed_length v : length (mt_seed v) = 312%nat.
Proof. apply mt_seed_words_length. Qed.

Lemma mt_next_length s : length s = 312%nat -> length (snd (mt_next s)) = 312%nat.
Proof.
  intros H. unfold mt_next. cbn [snd]. rewrite app_length. destruct s as [|a s]; [discriminate H|].
  cbn [tl length] in *. rewrite Nat.add_1_r. exact H.
Qed.

Lemma seed_words_spec : forall k x i (f : nat -> N) n, i = N.of_nat n -> f n = x ->
  (forall j, (n < j < n + k)%nat -> f j = mt_seed_next (f (j - 1)%nat) (N.of_nat j)) ->
  mt_seed_words k x i = map f (seq n k).
Proof.
  induction k; intros x i f n Hi Hf H; [reflexivity|]. cbn [mt_seed_words seq map]. f_equal; [now symmetry|].
  destruct k as [|k]; [reflexivity|].
  apply (IHk _ _ f (S n)); [lia| |intros j Hj; apply H; lia].
  rewrite (H (S n)) by lia. rewrite Nat.sub_1_r. cbn [pred]. rewrite Hf. f_equal. lia.
Qed.

Lemma twister_bound seed x : twister_sequence seed x -> forall i, x i < 2 ^ 64.
Proof.
  intros (H0 & Hs & Hn). 
  assert (B : forall n i, (i < n)%nat -> x i < 2 ^ 64).
  { induction n as [|n IH]; intros i Hi; [lia|].
    destruct (Nat.eq_dec i 0) as [->|Hz]; [rewrite H0; apply N.mod_lt; discriminate|].
    destruct (le_lt_dec 312 i) as [L|L].
    - replace i with (i - 312 + 312)%nat by lia. rewrite Hn. cbv zeta.
      assert (xor_lt : forall a b, a < 2 ^ 64 -> b < 2 ^ 64 -> N.lxor a b < 2 ^ 64).
      { intros a b Ha Hb. destruct (N.eq_dec (N.lxor a b) 0) as [->|NZ]; [reflexivity|].
        apply N.log2_lt_pow2; [lia|]. eapply N.le_lt_trans; [apply N.log2_lxor|].
        apply N.max_lub_lt.
        - destruct (N.eq_dec a 0) as [->|]; [reflexivity|]. apply N.log2_lt_pow2; [lia|assumption].
        - destruct (N.eq_dec b 0) as [->|]; [reflexivity|]. apply N.log2_lt_pow2; [lia|assumption]. }
      apply xor_lt; [apply IH; lia|]. apply xor_lt.
      + assert (A1 : x (i - 312)%nat < 2 ^ 64) by (apply IH; lia).
        apply N.div_lt_upper_bound; [lia|].
        assert (A2 : x (S (i - 312)) mod 2 ^ 31 < 2 ^ 31) by (apply N.mod_lt; discriminate).
        assert (A3 : x (i - 312)%nat / 2 ^ 31 < 2 ^ 33) by (apply N.div_lt_upper_bound; [lia|exact A1]).
        change (2 ^ 64) with (2 ^ 33 * 2 ^ 31). nia.
      + destruct (N.even _); reflexivity.
    - rewrite (Hs i) by lia. apply N.mod_lt. discriminate. }
  intros i. apply (B (S i)). lia.
Qed.

Lemma upper_lower a b : a < 2 ^ 64 -> b < 2 ^ 64 ->
  N.lor (N.land a 0xffffffff80000000) (N.land b 0x7fffffff) = (a / 2 ^ 31) * 2 ^ 31 + b mod 2 ^ 31.
Proof.
  intros Ha Hb.
  assert (E2 : N.land b 0x7fffffff = b mod 2 ^ 31) by (change 0x7fffffff with (N.ones 31); apply N.land_ones).
  assert (E1 : N.land a 0xffffffff80000000 = (a / 2 ^ 31) * 2 ^ 31).
  { rewrite <- N.shiftr_div_pow2, <- N.shiftl_mul_pow2.
    apply N.bits_inj. intros i. rewrite N.land_spec.
    change 0xffffffff80000000 with (N.shiftl (N.ones 33) 31).
    destruct (N.lt_ge_cases i 31) as [L|L].
    - rewrite !N.shiftl_spec_low by exact L. apply Bool.andb_false_r.
    - rewrite !N.shiftl_spec_high' by exact L. rewrite N.shiftr_spec'. replace (i - 31 + 31) with i by lia.
      destruct (N.lt_ge_cases (i - 31) 33) as [M|M].
      + rewrite N.ones_spec_low by exact M. apply Bool.andb_true_r.
      + rewrite N.ones_spec_high by exact M. rewrite Bool.andb_false_r. symmetry.
        destruct (N.eq_dec a 0) as [->|NZ]; [apply N.bits_0|].
        apply N.bits_above_log2. apply N.log2_lt_pow2; [lia|].
        eapply N.lt_le_trans; [exact Ha|]. apply N.pow_le_mono_r; lia. }
  rewrite E1, E2.
  assert (D : N.land ((a / 2 ^ 31) * 2 ^ 31) (b mod 2 ^ 31) = 0).
  { rewrite <- N.shiftl_mul_pow2, <- N.land_ones. apply N.bits_inj. intros i. rewrite N.bits_0, !N.land_spec.
    destruct (N.lt_ge_cases i 31) as [L|L].
    - rewrite N.shiftl_spec_low by exact L. reflexivity.
    - rewrite (N.ones_spec_high 31 i) by exact L. rewrite !Bool.andb_false_r. reflexivity. }
  rewrite <- N.lxor_lor by exact D. symmetry. apply N.add_nocarry_lxor. exact D.
Qed.

Lemma temper_spec x : mt_temper x = tempered x.
Proof. unfold mt_temper, tempered. now rewrite !N.shiftr_div_pow2, !N.shiftl_mul_pow2. Qed.

Lemma nth_map_seq (f : nat -> N) n k i : (i < k)%nat -> nth i (map f (seq n k)) 0 = f (n + i)%nat.
Proof.
  intros H. rewrite (nth_indep _ 0 (f 0%nat)) by now rewrite map_length, seq_length.
  rewrite map_nth, seq_nth by exact H. reflexivity.
Qed.

Lemma mt_next_window seed x n : twister_sequence seed x ->
  mt_next (map x (seq n 312)) = (tempered (x (n + 312)%nat), map x (seq (S n) 312)).
Proof.
  intros T. pose proof (twister_bound _ _ T) as B. destruct T as (_ & _ & Hn).
  unfold mt_next. rewrite !nth_map_seq by (apply Nat.ltb_lt; reflexivity).
  rewrite upper_lower by apply B. rewrite temper_spec, Nat.add_0_r, Nat.add_1_r, N.shiftr_div_pow2.
  specialize (Hn n). cbv zeta in Hn. change (2 ^ 1) with 2.
  rewrite <- N.negb_even.
  match type of Hn with _ = ?r => set (X := r) in * end.
  match goal with |- (tempered ?y, _) = _ => replace y with X end.
  2: { unfold X. destruct (N.even _); reflexivity. }
  rewrite <- Hn. f_equal.
  replace (seq n 312) with (n :: seq (S n) 311) by reflexivity.
  cbn [map tl]. replace 312%nat with (311 + 1)%nat by reflexivity.
  rewrite (seq_app 311 1 (S n)), map_app. f_equal. cbn [seq map]. do 2 f_equal. lia.
Qed.

Lemma mt_seed_window seed x : twister_sequence seed x -> mt_seed seed = map x (seq 0 312).
Proof.
  intros (H0 & Hs & _). unfold mt_seed. apply seed_words_spec; [reflexivity|exact H0|].
  intros j Hj. rewrite (Hs j) by lia. unfold mt_seed_next. now rewrite N.shiftr_div_pow2.
Qed.

Lemma advanced_S {E} (next : E -> N * E) e i : advanced next e (S i) = snd (next (advanced next e i)).
Proof. revert e. induction i as [|i IH]; intros e; [reflexivity|]. cbn [advanced]. rewrite <- IH. reflexivity. Qed.

Lemma word_advanced {E} (next : E -> N * E) e i : word next e i = fst (next (advanced next e i)).
Proof. revert e. induction i as [|i IH]; intros e; [reflexivity|]. cbn [word advanced]. apply IH. Qed.

Lemma advanced_add {E} (next : E -> N * E) e i j : advanced next e (i + j) = advanced next (advanced next e i) j.
Proof. revert e. induction i as [|i IH]; intros e; [reflexivity|]. cbn [advanced Nat.add]. apply IH. Qed.

Lemma mt_advanced seed x i : twister_sequence seed x -> advanced mt_next (mt_seed seed) i = map x (seq i 312).
Proof.
  intros T. induction i as [|i IH]; [exact (mt_seed_window _ _ T)|].
  rewrite advanced_S, IH, (mt_next_window _ _ _ T). reflexivity.
Qed.

Lemma mt_word seed x i : twister_sequence seed x -> word mt_next (mt_seed seed) i = tempered (x (i + 312)%nat).
Proof. intros T. rewrite word_advanced, (mt_advanced _ _ _ T), (mt_next_window _ _ _ T). reflexivity. Qed.

(** Such a sequence exists for every seed. *)
Lemma seed_words_nth : forall k x i j, (S j < k)%nat ->
  nth (S j) (mt_seed_words k x i) 0 = mt_seed_next (nth j (mt_seed_words k x i) 0) (i + N.of_nat (S j)).
Proof.
  induction k as [|k IH]; intros x i j H; [lia|]. cbn [mt_seed_words]. destruct k as [|k]; [lia|].
  destruct j as [|j].
  - cbn [nth mt_seed_words]. f_equal. 
  - set (l := mt_seed_words (S k) (mt_seed_next x (i + 1)) (i + 1)) in *.
    change (nth (S (S j)) (x :: l) 0) with (nth (S j) l 0). change (nth (S j) (x :: l) 0) with (nth j l 0).
    unfold l. rewrite IH by lia. f_equal. lia.
Qed.

Definition tw (seed : N) (i : nat) : N := nth 0 (advanced mt_next (mt_seed seed) i) 0.

Lemma adv_length seed i : length (advanced mt_next (mt_seed seed) i) = 312%nat.
Proof. induction i as [|i IH]; [apply mt_seed_length|]. rewrite advanced_S. now apply mt_next_length. Qed.

Lemma mt_next_snd s : snd (mt_next s) = tl s ++
  [let y := N.lor (N.land (nth 0 s 0) 0xffffffff80000000) (N.land (nth 1 s 0) 0x7fffffff) in
   N.lxor (nth 156 s 0) (N.lxor (N.shiftr y 1) (if N.odd y then 0xb5026f5aa96619e9 else 0))].
Proof. reflexivity. Qed.

Lemma tw_nth seed j : forall i, (j < 312)%nat -> nth j (advanced mt_next (mt_seed seed) i) 0 = tw seed (i + j)%nat.
Proof.
  induction j as [|j IH]; intros i H; [unfold tw; now rewrite Nat.add_0_r|].
  replace (i + S j)%nat with (S i + j)%nat by lia. rewrite <- IH by lia. rewrite advanced_S, mt_next_snd.
  pose proof (adv_length seed i) as L.
  destruct (advanced mt_next (mt_seed seed) i) as [|a s]; [discriminate L|].
  cbn [tl length] in L |- *. rewrite app_nth1; [reflexivity|]. apply Nat.succ_lt_mono. rewrite L. exact H.
Qed.

Lemma tw_exists seed : twister_sequence seed (tw seed).
Proof.
  assert (S0 : forall i, (i < 312)%nat -> tw seed i = nth i (mt_seed seed) 0).
  { intros i H. symmetry. exact (tw_nth seed i 0 H). }
  assert (C0 : tw seed 0 = seed mod 2 ^ 64) by reflexivity.
  assert (C1 : forall i, (0 < i < 312)%nat ->
     tw seed i = (6364136223846793005 * N.lxor (tw seed (i - 1)%nat) (tw seed (i - 1)%nat / 2 ^ 62) + N.of_nat i) mod 2 ^ 64).
  { intros i H. rewrite !S0 by lia. destruct i as [|i]; [lia|]. unfold mt_seed. rewrite seed_words_nth by lia.
    replace (S i - 1)%nat with i by lia. unfold mt_seed_next. rewrite N.shiftr_div_pow2, N.add_0_l. reflexivity. }
  assert (xor_lt : forall a b, a < 2 ^ 64 -> b < 2 ^ 64 -> N.lxor a b < 2 ^ 64).
  { intros a b Ha Hb. destruct (N.eq_dec (N.lxor a b) 0) as [->|NZ]; [reflexivity|].
    apply N.log2_lt_pow2; [lia|]. eapply N.le_lt_trans; [apply N.log2_lxor|].
    apply N.max_lub_lt.
    - destruct (N.eq_dec a 0) as [->|]; [reflexivity|]. apply N.log2_lt_pow2; [lia|assumption].
    - destruct (N.eq_dec b 0) as [->|]; [reflexivity|]. apply N.log2_lt_pow2; [lia|assumption]. }
  assert (land_lt : forall a b, b < 2 ^ 64 -> N.land a b < 2 ^ 64).
  { intros a b Hb. destruct (N.eq_dec (N.land a b) 0) as [->|NZ]; [reflexivity|].
    apply N.log2_lt_pow2; [lia|]. eapply N.le_lt_trans; [apply N.log2_land|].
    eapply N.le_lt_trans; [apply N.le_min_r|].
    destruct (N.eq_dec b 0) as [->|]; [reflexivity|]. apply N.log2_lt_pow2; [lia|assumption]. }
  assert (lor_lt : forall a b, a < 2 ^ 64 -> b < 2 ^ 64 -> N.lor a b < 2 ^ 64).
  { intros a b Ha Hb. destruct (N.eq_dec (N.lor a b) 0) as [->|NZ]; [reflexivity|].
    apply N.log2_lt_pow2; [lia|]. rewrite N.log2_lor.
    apply N.max_lub_lt.
    - destruct (N.eq_dec a 0) as [->|]; [reflexivity|]. apply N.log2_lt_pow2; [lia|assumption].
    - destruct (N.eq_dec b 0) as [->|]; [reflexivity|]. apply N.log2_lt_pow2; [lia|assumption]. }
  assert (R : forall i, tw seed (i + 312)%nat =
     let y := N.lor (N.land (tw seed i) 0xffffffff80000000) (N.land (tw seed (S i)) 0x7fffffff) in
     N.lxor (tw seed (i + 156)%nat) (N.lxor (N.shiftr y 1) (if N.odd y then 0xb5026f5aa96619e9 else 0))).
  { intros i. replace (i + 312)%nat with (S i + 311)%nat by lia.
    rewrite <- tw_nth by (apply Nat.ltb_lt; reflexivity). rewrite advanced_S, mt_next_snd. cbv zeta.
    rewrite !tw_nth by (apply Nat.ltb_lt; reflexivity). rewrite Nat.add_0_r, Nat.add_1_r.
    pose proof (adv_length seed i) as L. rewrite app_nth2.
    2: { destruct (advanced mt_next (mt_seed seed) i) as [|a s]; [discriminate L|]. cbn [tl length] in *. lia. }
    replace (311 - length (tl (advanced mt_next (mt_seed seed) i)))%nat with 0%nat.
    2: { destruct (advanced mt_next (mt_seed seed) i) as [|a s]; [discriminate L|]. cbn [tl length] in *. lia. }
    reflexivity. }
  assert (B : forall n i, (i < n)%nat -> tw seed i < 2 ^ 64).
  { induction n as [|n IH]; intros i Hi; [lia|].
    destruct (Nat.eq_dec i 0) as [->|Hz]; [rewrite C0; apply N.mod_lt; discriminate|].
    destruct (le_lt_dec 312 i) as [L|L].
    - replace i with (i - 312 + 312)%nat by lia. rewrite R. cbv zeta.
      apply xor_lt; [apply IH; lia|]. apply xor_lt.
      + rewrite N.shiftr_div_pow2. eapply N.le_lt_trans; [apply N.div_le_upper_bound with (q := N.lor (N.land (tw seed (i - 312)) 18446744071562067968) (N.land (tw seed (S (i - 312))) 2147483647)); [discriminate|change (2 ^ 1) with 2; lia]|].
        apply lor_lt; apply land_lt; reflexivity.
      + destruct (N.odd _); reflexivity.
    - rewrite (C1 i) by lia. apply N.mod_lt. discriminate. }
  split; [exact C0|]. split; [exact C1|].
  intros i. cbv zeta. rewrite R. cbv zeta. rewrite upper_lower by (eapply B; apply Nat.lt_succ_diag_r).
  rewrite N.shiftr_div_pow2, <- N.negb_even. change (2 ^ 1) with 2. destruct (N.even _); reflexivity.
Qed.

(** ** Programs with several engines *)

Lemma uuid_from_engine_spec {E} m (next : E -> N * E) e :
  uuid_from_engine m next e = (uuid_random m (word next e 0) (word next e 1), advanced next e 2).
Proof.
  unfold uuid_from_engine. cbn [word advanced]. destruct (next e) as [w1 e1]. cbn [fst snd].
  destruct (next e1) as [w2 e2]. reflexivity.
Qed.

Lemma engines_spec {E} m (next : E -> N * E) : forall ops (es : nat -> E) us es',
  engines_run m next ops es = (us, es') ->
  map fst us = ops /\
  forall i, let n := count_occ Nat.eq_dec ops i in
    map snd (filter (fun p => Nat.eqb (fst p) i) us) =
      map (fun k => uuid_random m (word next (es i) (2 * k)) (word next (es i) (2 * k + 1))) (seq 0 n) /\
    es' i = advanced next (es i) (2 * n).
Proof.
  induction ops as [|o ops IH]; intros es us es' R.
  - cbn in R. injection R as <- <-. split; [reflexivity|]. intros i. split; reflexivity.
  - cbn [engines_run] in R. rewrite uuid_from_engine_spec in R.
    destruct (engines_run m next ops _) as [us1 es1] eqn:R1. injection R as <- <-.
    destruct (IH _ _ _ R1) as [H1 H2]. split; [cbn [map fst]; now rewrite H1|].
    intros i. specialize (H2 i). cbv zeta in *. destruct H2 as [H2 H3].
    cbn [filter fst]. destruct (Nat.eqb_spec o i) as [->|NE].
    + rewrite count_occ_cons_eq by reflexivity. rewrite Nat.eqb_refl in H2, H3.
      cbn [map snd]. split.
      * rewrite H2. cbn [seq map]. f_equal. rewrite <- seq_shift, map_map. apply map_ext. intros k.
        rewrite !word_advanced, <- !advanced_add. f_equal; do 3 f_equal; lia.
      * rewrite H3, <- advanced_add. f_equal. lia.
    + rewrite count_occ_cons_neq by exact NE. rewrite (proj2 (Nat.eqb_neq i o)) in H2, H3 by congruence.
      split; assumption.
Qed.

(** ** Threads *)

(** The steps of one thread alone. *)
Fixpoint thread_run (m : endian) (rds : list (option N)) (t : gen_thread) : gen_thread :=
  match rds with [] => t | rd :: rds' => thread_run m rds' (gen_thread_step m rd t) end.

Lemma run_thread m i : forall sched s, gen_run m sched s i = thread_run m (steps_of i sched) (s i).
Proof.
  unfold steps_of. induction sched as [|[j rd] sched IH]; intros s; [reflexivity|].
  cbn [gen_run filter fst]. rewrite IH. destruct (Nat.eqb_spec j i) as [->|NE].
  - cbn [map snd thread_run]. now rewrite Nat.eqb_refl.
  - now rewrite (proj2 (Nat.eqb_neq i j)) by congruence.
Qed.

Lemma thread_run_app m a : forall b t, thread_run m (a ++ b) t = thread_run m b (thread_run m a t).
Proof. induction a as [|x a IH]; intros; [reflexivity|]. cbn [thread_run app]. apply IH. Qed.

Lemma thread_fails m : forall k out, thread_run m (repeat None k) (Thread None GEnter out) = Thread None GEnter (out ++ repeat None k).
Proof.
  induction k as [|k IH]; intros out; [now rewrite app_nil_r|].
  cbn [repeat thread_run]. unfold gen_thread_step. cbn [th_pc th_engine th_out]. rewrite IH, <- app_assoc. reflexivity.
Qed.

Definition nth_made (m : endian) (e : list N) (k : nat) : option (list byte) :=
  Some (uuid_random m (word mt_next e (2 * k)) (word mt_next e (2 * k + 1))).

Lemma thread_goes m : forall rds e out,
  (th_out (thread_run m rds (Thread (Some e) GEnter out)) = out ++ map (nth_made m e) (seq 0 (length rds / 3))) /\
  (th_out (thread_run m rds (Thread (Some e) GFirst out)) = out ++ map (nth_made m e) (seq 0 ((length rds + 1) / 3))).
Proof.
  assert (K : forall n rds, (length rds < n)%nat -> forall e out,
   (th_out (thread_run m rds (Thread (Some e) GEnter out)) = out ++ map (nth_made m e) (seq 0 (length rds / 3))) /\
   (th_out (thread_run m rds (Thread (Some e) GFirst out)) = out ++ map (nth_made m e) (seq 0 ((length rds + 1) / 3)))).
  2: { intros rds. apply (K (S (length rds))). lia. }
  induction n as [|n IH]; intros rds Hn e out; [lia|].
  split.
  - destruct rds as [|r rds]; [cbn; now rewrite app_nil_r|].
    cbn [thread_run length] in *. unfold gen_thread_step at 1. cbn [th_pc th_engine th_out].
    rewrite (proj2 (IH rds ltac:(lia) e out)). rewrite Nat.add_1_r. reflexivity.
  - destruct rds as [|r [|r' rds]]; [cbn; now rewrite app_nil_r| |].
    + cbn [thread_run length]. unfold gen_thread_step. cbn [th_pc th_engine th_out].
      destruct (mt_next e). cbn. now rewrite app_nil_r.
    + cbn [thread_run length] in *. unfold gen_thread_step at 2. cbn [th_pc th_engine th_out].
      destruct (mt_next e) as [w1 e1] eqn:E1. unfold gen_thread_step at 1. cbn [th_pc th_engine th_out].
      destruct (mt_next e1) as [w2 e2] eqn:E2.
      rewrite (proj1 (IH rds ltac:(lia) e2 _)).
      replace ((S (S (length rds)) + 1) / 3)%nat with (S (length rds / 3)).
      2: { replace (S (S (length rds)) + 1)%nat with (1 * 3 + length rds)%nat by lia. rewrite Nat.div_add_l by discriminate. reflexivity. }
      rewrite <- app_assoc. f_equal. cbn [seq map app]. f_equal.
      * unfold nth_made. cbn [Nat.mul Nat.add word]. rewrite E1. cbn [fst snd]. rewrite E2. reflexivity.
      * rewrite <- seq_shift, map_map. apply map_ext. intros k. unfold nth_made. f_equal.
        replace e2 with (advanced mt_next e 2) by (cbn [advanced]; rewrite E1; cbn [snd]; now rewrite E2).
        rewrite !word_advanced, <- !advanced_add. f_equal; do 3 f_equal; lia.
Qed.

Lemma made_exact m sched i k v rest :
  steps_of i sched = repeat None k ++ Some v :: rest ->
  made_by m sched i = repeat None k ++ map (nth_made m (mt_seed (v mod 2 ^ 32))) (seq 0 ((length rest + 1) / 3)).
Proof.
  intros H. unfold made_by. rewrite run_thread, H, thread_run_app. unfold gen_start. rewrite thread_fails.
  cbn [thread_run]. unfold gen_thread_step. cbn [th_pc th_engine th_out app].
  rewrite (proj2 (thread_goes m rest _ _)). reflexivity.
Qed.

Lemma made_never m sched i k : steps_of i sched = repeat None k -> made_by m sched i = repeat None k.
Proof. intros H. unfold made_by. rewrite run_thread, H. unfold gen_start. rewrite thread_fails. reflexivity. Qed.

Lemma steps_cases : forall l : list (option N), (exists k, l = repeat None k) \/ (exists k v rest, l = repeat None k ++ Some v :: rest).
Proof.
  induction l as [|[v|] l IH].
  - left. now exists 0%nat.
  - right. now exists 0%nat, v, l.
  - destruct IH as [[k ->]|(k & v & rest & ->)]; [left; now exists (S k)|right; now exists (S k), v, rest].
Qed.

Lemma any_schedule m sched i k v rest x :
  steps_of i sched = repeat None k ++ Some v :: rest -> twister_sequence (v mod 2 ^ 32) x ->
  made_by m sched i = repeat None k ++
    map (fun j => Some (uuid_random m (tempered (x (312 + 2 * j)%nat)) (tempered (x (313 + 2 * j)%nat))))
        (seq 0 ((length rest + 1) / 3)).
Proof.
  intros H T. rewrite (made_exact _ _ _ _ _ _ H). f_equal. apply map_ext. intros j. unfold nth_made.
  rewrite !(mt_word _ _ _ T). do 4 f_equal; lia.
Qed.

Lemma only_own_steps m sched sched' i : steps_of i sched = steps_of i sched' -> made_by m sched i = made_by m sched' i.
Proof. intros H. unfold made_by. rewrite !run_thread, H. reflexivity. Qed.

(** ** Collisions *)

Lemma pigeon (M : N) : forall (ts : list nat) (f : nat -> N),
  NoDup ts -> (forall t, In t ts -> f t < M) -> M < lenN ts ->
  exists a b, In a ts /\ In b ts /\ a <> b /\ f a = f b.
Proof.
  intros ts f ND HB HL.
  assert (D : NoDup (map f ts) \/ exists a b, In a ts /\ In b ts /\ a <> b /\ f a = f b).
  { clear HB HL. induction ts as [|t ts IH]; [left; constructor|]. inversion ND as [|? ? NI ND']; subst.
    destruct (IH ND') as [L|(a & b & Ha & Hb & Hab)]; [|right; exists a, b; cbn; tauto].
    destruct (in_dec N.eq_dec (f t) (map f ts)) as [I|I].
    - right. apply in_map_iff in I. destruct I as (b & Eb & Ib). exists t, b. cbn.
      repeat split; [tauto|tauto| |congruence]. intros ->. contradiction.
    - left. cbn. constructor; assumption. }
  destruct D as [D|D]; [exfalso|exact D].
  assert (I : incl (map f ts) (map N.of_nat (seq 0 (N.to_nat M)))).
  { intros y Hy. apply in_map_iff in Hy. destruct Hy as (t & <- & Ht). apply in_map_iff.
    exists (N.to_nat (f t)). split; [lia|]. apply in_seq. specialize (HB t Ht). lia. }
  pose proof (NoDup_incl_length D I) as LL. rewrite !map_length, seq_length in LL. unfold lenN in HL. lia.
Qed.

Definition seed_of (i : nat) (sched : list (nat * option N)) : N :=
  match find (fun r => match r with Some _ => true | None => false end) (steps_of i sched) with
  | Some (Some v) => v mod 2 ^ 32
  | _ => 0
  end.

Lemma find_first k (v : N) rest :
  find (fun r => match r with Some _ => true | None => false end) (repeat None k ++ Some v :: rest) = Some (Some v).
Proof. induction k as [|k IH]; [reflexivity|exact IH]. Qed.

Lemma uuids_app a b : uuids (a ++ b) = uuids a ++ uuids b.
Proof. apply flat_map_app. Qed.
Lemma uuids_none k : uuids (repeat None k) = [].
Proof. induction k; [reflexivity|exact IHk]. Qed.
Lemma uuids_made m e l : uuids (map (nth_made m e) l) = map (fun k => uuid_random m (word mt_next e (2 * k)) (word mt_next e (2 * k + 1))) l.
Proof. induction l as [|a l IH]; [reflexivity|]. cbn [map uuids flat_map nth_made app]. f_equal. exact IH. Qed.

Lemma uuids_of m sched i : exists n, uuids (made_by m sched i) =
   map (fun k => uuid_random m (word mt_next (mt_seed (seed_of i sched)) (2 * k)) (word mt_next (mt_seed (seed_of i sched)) (2 * k + 1))) (seq 0 n).
Proof.
  destruct (steps_cases (steps_of i sched)) as [[k H]|(k & v & rest & H)].
  - exists 0%nat. rewrite (made_never _ _ _ _ H), uuids_none. reflexivity.
  - exists ((length rest + 1) / 3)%nat. rewrite (made_exact _ _ _ _ _ _ H), uuids_app, uuids_none, uuids_made.
    unfold seed_of. rewrite H, find_first. reflexivity.
Qed.

Lemma collide m sched ts : NoDup ts -> 2 ^ 32 < lenN ts ->
  exists a b, In a ts /\ In b ts /\ a <> b /\
    forall j u w, nth_error (uuids (made_by m sched a)) j = Some u -> nth_error (uuids (made_by m sched b)) j = Some w -> u = w.
Proof.
  intros ND HL.
  destruct (pigeon (2 ^ 32) ts (fun t => seed_of t sched) ND) as (a & b & Ha & Hb & NE & E); [|exact HL|].
  { intros t _. unfold seed_of. destruct (find _ _) as [[v|]|]; [apply N.mod_lt; discriminate|reflexivity|reflexivity]. }
  exists a, b. repeat split; try assumption. intros j u w Hu Hw.
  destruct (uuids_of m sched a) as [n1 E1]. destruct (uuids_of m sched b) as [n2 E2].
  rewrite E1 in Hu. rewrite E2 in Hw. rewrite nth_error_map in Hu, Hw.
  destruct (nth_error (seq 0 n1) j) as [x|] eqn:X1; [|discriminate Hu].
  destruct (nth_error (seq 0 n2) j) as [y|] eqn:X2; [|discriminate Hw].
  assert (x = j) by (apply nth_error_nth with (d := 0%nat) in X1 as X; rewrite seq_nth in X;
     [now symmetry|rewrite <- (seq_length n1 0); apply nth_error_Some; congruence]).
  assert (y = j) by (apply nth_error_nth with (d := 0%nat) in X2 as X; rewrite seq_nth in X;
     [now symmetry|rewrite <- (seq_length n2 0); apply nth_error_Some; congruence]).
  subst x y. cbn [option_map] in Hu, Hw. cbv beta in E. rewrite E in Hu. congruence.
Qed.

Lemma collide_first m sched ts : NoDup ts -> 2 ^ 32 < lenN ts -> (forall t, In t ts -> uuids (made_by m sched t) <> []) ->
  exists a b u, In a ts /\ In b ts /\ a <> b /\
    hd_error (uuids (made_by m sched a)) = Some u /\ hd_error (uuids (made_by m sched b)) = Some u /\
    forall j w w', nth_error (uuids (made_by m sched a)) j = Some w -> nth_error (uuids (made_by m sched b)) j = Some w' -> w = w'.
Proof.
  intros ND HL HN. destruct (collide m sched ts ND HL) as (a & b & Ha & Hb & NE & H).
  pose proof (HN a Ha) as Na. pose proof (HN b Hb) as Nb.
  destruct (uuids (made_by m sched a)) as [|u la] eqn:Ea; [contradiction|].
  destruct (uuids (made_by m sched b)) as [|w lb] eqn:Eb; [contradiction|].
  assert (u = w) by (apply (H 0%nat); reflexivity). subst w.
  exists a, b, u. rewrite Ea, Eb. repeat split; try assumption.
Qed.

(** There are such schedules: every thread of a list makes one UUID. *)
Lemma steps_of_app i a b : steps_of i (a ++ b) = steps_of i a ++ steps_of i b.
Proof. unfold steps_of. now rewrite filter_app, map_app. Qed.

Lemma steps_flat (f : nat -> option N) : forall ts i, NoDup ts ->
  steps_of i (flat_map (fun t => [(t, f t); (t, None); (t, None)]) ts) = if in_dec Nat.eq_dec i ts then [f i; None; None] else [].
Proof.
  induction ts as [|t ts IH]; intros i ND; [reflexivity|]. inversion ND as [|? ? NI ND']; subst.
  cbn [flat_map]. rewrite steps_of_app, IH by assumption. destruct (Nat.eq_dec t i) as [->|NE].
  - unfold steps_of. cbn [filter fst]. rewrite Nat.eqb_refl. cbn [map snd].
    destruct (in_dec Nat.eq_dec i ts) as [I|I]; [contradiction|].
    destruct (in_dec Nat.eq_dec i (i :: ts)) as [J|J]; [reflexivity|]. exfalso. apply J. now left.
  - unfold steps_of. cbn [filter fst]. rewrite (proj2 (Nat.eqb_neq t i)) by exact NE. cbn [map app].
    destruct (in_dec Nat.eq_dec i ts) as [I|I]; destruct (in_dec Nat.eq_dec i (t :: ts)) as [J|J]; try reflexivity.
    + exfalso. apply J. now right.
    + exfalso. destruct J as [J|J]; [congruence|contradiction].
Qed.

Lemma everyone_makes m ts (f : nat -> N) : NoDup ts ->
  forall t, In t ts -> length (uuids (made_by m (flat_map (fun t => [(t, Some (f t)); (t, None); (t, None)]) ts) t)) = 1%nat.
Proof.
  intros ND t Ht. pose proof (steps_flat (fun t => Some (f t)) ts t ND) as H. cbv beta in H.
  destruct (in_dec Nat.eq_dec t ts) as [_|C]; [|contradiction].
  rewrite (made_exact m _ t 0 (f t) [None; None] H). reflexivity.
Qed.

Lemma same_value m sched a b ka kb v ra rb :
  steps_of a sched = repeat None ka ++ Some v :: ra -> steps_of b sched = repeat None kb ++ Some v :: rb ->
  (length ra <= length rb)%nat -> exists more, uuids (made_by m sched b) = uuids (made_by m sched a) ++ more.
Proof.
  intros HA HB L. rewrite (made_exact _ _ _ _ _ _ HA), (made_exact _ _ _ _ _ _ HB).
  rewrite !uuids_app, !uuids_none, !uuids_made. cbn [app].
  assert (LE : ((length ra + 1) / 3 <= (length rb + 1) / 3)%nat) by (apply Nat.div_le_mono; lia).
  exists (map (fun k => uuid_random m (word mt_next (mt_seed (v mod 2 ^ 32)) (2 * k)) (word mt_next (mt_seed (v mod 2 ^ 32)) (2 * k + 1)))
     (seq ((length ra + 1) / 3) ((length rb + 1) / 3 - (length ra + 1) / 3))).
  rewrite <- map_app, <- seq_app. do 2 f_equal. lia.
Qed.

(** A schedule in which 2^32 + 1 threads make a UUID each. *)
Lemma many_threads m : exists sched ts, NoDup ts /\ 2 ^ 32 < lenN ts /\ forall t, In t ts -> uuids (made_by m sched t) <> [].
Proof.
  set (n := N.to_nat (2 ^ 32 + 1)).
  assert (NE : N.of_nat n = 2 ^ 32 + 1) by (unfold n; now rewrite N2Nat.id).
  clearbody n.
  exists (flat_map (fun t => [(t, Some 0); (t, None); (t, None)]) (seq 0 n)), (seq 0 n).
  pose proof (seq_NoDup n 0) as ND. split; [exact ND|].
  split; [unfold lenN; rewrite seq_length, NE; reflexivity|].
  intros t Ht E. pose proof (everyone_makes m (seq 0 n) (fun _ => 0) ND t Ht) as L. cbv beta in L. rewrite E in L. discriminate L.
Qed.

Lemma sequence_exists seed : exists x, twister_sequence seed x.
Proof. exists (tw seed). apply tw_exists. Qed.
