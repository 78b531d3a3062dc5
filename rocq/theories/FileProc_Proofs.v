From Verif Require Import Base BaseFacts Io_Model Io_Spec Io_Proofs File_Model File_Spec File_Proofs FileProc_Model FileProc_Spec.

Ltac opens := unfold open_for_read, open_for_write, open_read, open_write in *.

Lemma step_handles st c : source_ok c ->
  pr_open (fst (proc_step st c)) = pr_open st + (if alloc_failed (snd (proc_step st c)) then 1 else 0).
Proof.
  intros H. destruct c as [x p n|x p out|x p n r|x p n r]; cbn [proc_step source_ok] in *.
  - unfold proc_read. opens. destruct (_ <? _); [|cbn; lia]. destruct (can_read _ p); [|cbn; lia].
    destruct (pr_fs st p) as [c|]; [|cbn; lia]. cbv zeta. unfold make_bytes. destruct (_ <? _); [cbn; lia|]. destruct (wd_alloc _ _); cbn; lia.
  - unfold proc_try_read. opens. destruct (_ <? _); [|cbn; lia]. destruct (can_read _ p); [|cbn; lia].
    destruct (pr_fs st p) as [c|]; [|cbn; lia]. cbn. lia.
  - unfold proc_write, source_bytes. opens. rewrite (proj2 (N.leb_le _ _) H). destruct (_ <? _); [|cbn; lia].
    destruct (can_write _ p); cbn; lia.
  - unfold proc_try_write, source_bytes. opens. rewrite (proj2 (N.leb_le _ _) H). destruct (_ <? _); [|cbn; lia].
    destruct (can_write _ p); cbn; lia.
Qed.

Lemma handles_exact cs : forall st, Forall source_ok cs ->
  pr_open (fst (proc_run st cs)) = pr_open st + count_if alloc_failed (snd (proc_run st cs)).
Proof.
  induction cs as [|c r IH]; intros st H; [cbn; lia|]. inversion H as [|? ? Hc Hr]; subst.
  pose proof (step_handles st c Hc) as S. cbn [proc_run]. destruct (proc_step st c) as [st1 o]. cbn [fst snd] in S.
  specialize (IH st1 Hr). destruct (proc_run st1 r) as [st2 os]. cbn [fst snd] in *. rewrite IH, S.
  unfold count_if. cbn [filter]. destruct (alloc_failed o); rewrite ?lenN_cons; lia.
Qed.

Lemma closed_unless_alloc st c st' o : source_ok c -> proc_step st c = (st', o) -> alloc_failed o = false -> pr_open st' = pr_open st.
Proof. intros H E A. pose proof (step_handles st c H) as S. rewrite E in S. cbn [fst snd] in S. rewrite A in S. lia. Qed.

Lemma only_read_leaks st c st' o : source_ok c -> proc_step st c = (st', o) -> alloc_failed o = true ->
  exists x p n e, c = PRead x p n /\ o = PReadO (Throw e) /\ can_read (wd_os x) p = true /\ pr_fs st p <> None.
Proof.
  intros H E A. destruct c as [x p n|x p out|x p n r|x p n r]; cbn [proc_step] in E.
  - unfold proc_read in E. opens. destruct (_ <? _); [|injection E as <- <-; discriminate].
    destruct (can_read _ p) eqn:C; [|injection E as <- <-; discriminate].
    destruct (pr_fs st p) as [c|] eqn:F; [|injection E as <- <-; discriminate]. cbv zeta in E.
    destruct (make_bytes _ _) as [b|e| | |]; injection E as <- <-; try discriminate.
    exists x, p, n, e. repeat split; try assumption. congruence.
  - destruct (proc_try_read _ _ _ _) as [[? ?] ?]. injection E as <- <-. discriminate.
  - destruct (proc_write _ _ _ _ _). injection E as <- <-. discriminate.
  - destruct (proc_try_write _ _ _ _ _). injection E as <- <-. discriminate.
Qed.

Definition tight : world :=
  World (OS (fun _ => true) (fun _ => true) (fun n => n) []) 2 (fun _ c => lenN c) 100 (fun n => n <=? 2).

Lemma leak_refuted : exists st c, source_ok c /\ pr_open (fst (proc_step st c)) <> pr_open st.
Proof. exists (Proc (fun _ => Some [x01; x02; x03]) 0), (PRead tight 0 None). split; [exact I|]. vm_compute. discriminate. Qed.

Lemma exhaustion_refuted : exists x st p n cs bs, Forall source_ok cs /\ pr_open st < wd_limit x /\
  snd (proc_read x st p n) = Ok bs /\
  let st' := fst (proc_run st cs) in pr_fs st' = pr_fs st /\ snd (proc_read x st' p n) = Throw invalid_argument.
Proof.
  exists tight, (Proc (fun _ => Some [x01; x02; x03]) 0), 0, (Some 1), [PRead tight 0 None; PRead tight 0 None], [x01].
  split; [repeat constructor|]. vm_compute. auto.
Qed.

(** ** Agreement with File_Model *)

Lemma open_close st : close_handle (Proc (pr_fs st) (pr_open st + 1)) = st.
Proof. destruct st as [f n]. unfold close_handle. cbn. f_equal. lia. Qed.

Lemma healthy_read x st p n : healthy x st -> proc_read x st p n = (st, read_file (wd_os x) (pr_fs st) p n).
Proof.
  intros (A & B & C & D). unfold proc_read, read_file, open_for_read. rewrite (proj2 (N.ltb_lt _ _) D).
  unfold open_read. destruct (can_read _ p); [|reflexivity]. destruct (pr_fs st p) as [c|] eqn:F; [|reflexivity]. cbv zeta.
  unfold reported_size. rewrite A. pose proof (C p c F) as L. unfold make_bytes, file_size.
  set (k := match n with None => lenN c | Some j => N.min j (lenN c) end).
  assert (K : k <= wd_max x) by (unfold k; destruct n; lia).
  rewrite (proj2 (N.ltb_ge _ _) K), (B k K). rewrite open_close. reflexivity.
Qed.

Lemma healthy_try_read x st p out : healthy x st -> rg_esize out = 1 -> range_ok out ->
  let '(st', out', o) := proc_try_read x st p out in
  st' = st /\ (rg_mem out', o) = try_read_file (wd_os x) (pr_fs st) p (rg_mem out).
Proof.
  intros (A & B & C & D) E R. unfold range_ok in R. rewrite E in R. rewrite N.mul_1_l in R.
  unfold proc_try_read, try_read_file, open_for_read. rewrite (proj2 (N.ltb_lt _ _) D).
  unfold open_read. destruct (can_read _ p); [|split; reflexivity]. destruct (pr_fs st p) as [c|] eqn:F; [|split; reflexivity]. cbv zeta.
  unfold reported_size. rewrite A. unfold file_size. rewrite R, open_close. split; [reflexivity|].
  assert (G : forall k m, lenN m = k ->
     (rg_mem (read_into x c (Range 1 k m)), (RVal (rg_count (read_into x c (Range 1 k m))) : result N read_error)) =
     (unsafe_read (wd_os x) c (lenN m) m, RVal (lenN (unsafe_read (wd_os x) c (lenN m) m)))).
  { intros k m Hk. unfold read_into, unsafe_read. cbn [rg_count rg_mem rg_esize]. rewrite Hk. f_equal. f_equal.
    rewrite lenN_app, lenN_dropN, lenN_takeN. lia. }
  destruct out as [es k m]. cbn [rg_esize rg_count rg_mem] in *. subst es.
  destruct (N.ltb_spec (lenN c) k).
  - unfold shrink. cbn [rg_esize rg_count rg_mem]. rewrite N.mul_1_l. apply G. rewrite lenN_takeN. lia.
  - apply G. exact R.
Qed.

Lemma healthy_write x st p n r : healthy x st -> n <= lenN (rg_mem r) ->
  (let '(st', o) := proc_write x st p n r in let '(f', o') := write_file_n (wd_os x) (pr_fs st) p n r in
   pr_open st' = pr_open st /\ (forall q, pr_fs st' q = f' q) /\ o = o') /\
  (let '(st', o) := proc_try_write x st p n r in let '(f', o') := try_write_file_n (wd_os x) (pr_fs st) p n r in
   pr_open st' = pr_open st /\ (forall q, pr_fs st' q = f' q) /\ o = o').
Proof.
  intros (_ & _ & _ & D) L. rewrite write_file_n_char, try_write_file_n_char by exact L.
  unfold proc_write, proc_try_write, open_for_write, open_write, source_bytes. rewrite (proj2 (N.ltb_lt _ _) D), (proj2 (N.leb_le _ _) L).
  destruct (can_write _ p); [|repeat split; reflexivity].
  unfold close_handle, put_bytes. cbn [pr_fs pr_open]. rewrite over_emptied.
  assert (Q : pr_open st + 1 - 1 = pr_open st) by lia. rewrite Q.
  assert (F : forall d q, fs_set (fs_set (pr_fs st) p []) p d q = fs_set (pr_fs st) p d q).
  { intros d q. unfold fs_set. destruct (q =? p); reflexivity. }
  repeat split; intros q; apply F.
Qed.

(** ** What a read delivers *)

Lemma dropN_repeat {A} n (a : A) k : dropN n (repeat a k) = repeat a (k - N.to_nat n).
Proof.
  unfold dropN. generalize (N.to_nat n). intros i. revert k. induction i as [|i IH]; intros k; [now rewrite Nat.sub_0_r|].
  destruct k; [reflexivity|]. cbn. apply IH.
Qed.

Lemma read_exact_mem x st p n st' bs : proc_read x st p n = (st', Ok bs) ->
  exists c, pr_fs st p = Some c /\
    let k := match n with None => wd_tell x p c | Some j => N.min j (wd_tell x p c) end in
    let m := N.min (N.min (rd_moved (wd_os x) k) k) (lenN c) in
    bs = takeN m c ++ repeat x00 (N.to_nat (k - m)).
Proof.
  unfold proc_read. opens. destruct (_ <? _); [|discriminate]. destruct (can_read _ p); [|discriminate].
  destruct (pr_fs st p) as [c|]; [|discriminate]. cbv zeta. unfold reported_size.
  set (k := match n with None => wd_tell x p c | Some j => N.min j (wd_tell x p c) end).
  unfold make_bytes. destruct (_ <? _); [discriminate|]. destruct (wd_alloc _ _); [|discriminate].
  intros E. injection E as <- <-. exists c. split; [reflexivity|]. fold k. unfold read_into. cbn [rg_mem rg_count].
  set (m0 := N.min (rd_moved (wd_os x) k) k). rewrite lenN_takeN. f_equal.
  - destruct (N.leb_spec m0 (lenN c)); [f_equal; lia|]. rewrite !takeN_all by lia. reflexivity.
  - unfold zero_bytes. rewrite dropN_repeat. f_equal. lia.
Qed.

Lemma read_delivers x st p n st' bs : honest x -> full_reads (wd_os x) -> proc_read x st p n = (st', Ok bs) ->
  exists c, pr_fs st p = Some c /\ bs = match n with None => c | Some j => takeN j c end.
Proof.
  intros H F E. destruct (read_exact_mem x st p n st' bs E) as (c & Hc & B). cbv zeta in B. exists c. split; [exact Hc|].
  rewrite H in B. rewrite B. set (k := match n with None => lenN c | Some j => N.min j (lenN c) end).
  assert (K : k <= lenN c) by (unfold k; destruct n; lia). specialize (F k).
  replace (N.min (N.min (rd_moved (wd_os x) k) k) (lenN c)) with k by lia. rewrite N.sub_diag. cbn [repeat N.to_nat]. rewrite app_nil_r.
  unfold k. destruct n as [j|]; [|now rewrite takeN_all by lia].
  destruct (N.leb_spec j (lenN c)); [f_equal; lia|]. rewrite !takeN_all by lia. reflexivity.
Qed.

Lemma try_read_exact x st p out st' out' o : proc_try_read x st p out = (st', out', o) ->
  match o with
  | RErr e => st' = st /\ out' = out
  | RVal k => exists c, pr_fs st p = Some c /\ k = N.min (rg_count out) (wd_tell x p c) /\
      rg_count out' = k /\ rg_esize out' = rg_esize out /\
      let m := N.min (N.min (rd_moved (wd_os x) k) k) (lenN c) in
      1 <= rg_esize out -> range_ok out ->
      rg_mem out' = takeN m c ++ slice (rg_mem out) m (rg_esize out * k - m) /\ range_ok out'
  end.
Proof.
  unfold proc_try_read. opens. destruct (_ <? _); [|intros E; injection E as <- <- <-; auto].
  destruct (can_read _ p); [|intros E; injection E as <- <- <-; auto].
  destruct (pr_fs st p) as [c|]; [|intros E; injection E as <- <- <-; auto]. cbv zeta. unfold reported_size.
  intros E. injection E as <- <- <-. exists c. split; [reflexivity|].
  set (t := wd_tell x p c). destruct out as [es k0 mem]. cbn [rg_count rg_esize rg_mem]. unfold range_ok. cbn [rg_count rg_esize rg_mem].
  assert (G : forall k m1, k = N.min k0 t -> m1 = takeN (es * k) mem ->
     let out2 := read_into x c (Range es k m1) in
     rg_count out2 = k /\ rg_esize out2 = es /\
     (1 <= es -> lenN mem = es * k0 ->
      let m := N.min (N.min (rd_moved (wd_os x) k) k) (lenN c) in
      rg_mem out2 = takeN m c ++ slice mem m (es * k - m) /\ lenN (rg_mem out2) = rg_esize out2 * rg_count out2)).
  { intros k m1 Ek Em. cbv zeta. split; [reflexivity|]. split; [reflexivity|]. intros He Hm.
    assert (Q : k <= es * k) by nia. assert (Q2 : es * k <= es * k0) by (apply N.mul_le_mono_l; lia).
    unfold read_into. cbn [rg_count rg_esize rg_mem]. set (m0 := N.min (rd_moved (wd_os x) k) k).
    assert (T : takeN m0 c = takeN (N.min m0 (lenN c)) c).
    { destruct (N.leb_spec m0 (lenN c)); [f_equal; lia|]. rewrite !takeN_all by lia. reflexivity. }
    rewrite lenN_takeN. split.
    - rewrite T. f_equal. subst m1. unfold slice. set (m := N.min m0 (lenN c)).
      assert (Mle : m <= es * k) by (unfold m, m0; lia).
      rewrite takeN_dropN_comm. f_equal. f_equal. lia.
    - rewrite lenN_app, lenN_dropN, lenN_takeN. subst m1. rewrite lenN_takeN. unfold m0. lia. }
  destruct (N.ltb_spec t k0).
  - unfold shrink. cbn [rg_count rg_esize rg_mem]. specialize (G t (takeN (es * t) mem) ltac:(lia) eq_refl). cbv zeta in G.
    destruct G as (G1 & G2 & G3). rewrite G1. split; [lia|]. split; [reflexivity|]. split; [reflexivity|]. intros He Hm. destruct (G3 He Hm). auto.
  - assert (Hk : k0 = N.min k0 t) by lia.
    split; [cbn; lia|]. split; [reflexivity|]. split; [reflexivity|]. intros He Hm.
    specialize (G k0 mem Hk). rewrite (takeN_all (es * k0) mem) in G by lia. destruct (G eq_refl) as (_ & _ & G3). destruct (G3 He Hm). auto.
Qed.

Lemma try_read_delivers x st p out st' out' k : honest x -> full_reads (wd_os x) -> rg_esize out = 1 -> range_ok out ->
  proc_try_read x st p out = (st', out', RVal k) ->
  exists c, pr_fs st p = Some c /\ rg_mem out' = takeN (rg_count out) c /\ k = lenN (rg_mem out').
Proof.
  intros H F E1 R E. pose proof (try_read_exact x st p out st' out' _ E) as (c & Hc & Hk & C' & E' & X). cbv zeta in X.
  destruct (X ltac:(lia) R) as (M & R'). exists c. split; [exact Hc|]. rewrite H in Hk. specialize (F k).
  unfold range_ok in R'. rewrite E', E1, C' in R'. split; [|lia]. rewrite M.
  replace (N.min (N.min (rd_moved (wd_os x) k) k) (lenN c)) with k by lia. rewrite E1, N.mul_1_l, N.sub_diag. unfold slice.
  rewrite takeN_0, app_nil_r. subst k. destruct (N.leb_spec (rg_count out) (lenN c)); [f_equal; lia|]. rewrite !takeN_all by lia. reflexivity.
Qed.

Definition short_world : world :=
  World (OS (fun _ => true) (fun _ => true) (fun _ => 1) []) 9 (fun _ c => lenN c) 100 (fun _ => true).
Definition good_world : world :=
  World (OS (fun _ => true) (fun _ => true) (fun n => n) [3]) 9 (fun _ c => lenN c) 100 (fun _ => true).

Lemma short_read_refuted : exists x st p c,
  honest x /\ pr_fs st p = Some c /\
  (exists st' bs, proc_read x st p None = (st', Ok bs) /\ ~ prefix_of bs c) /\
  (exists out st' out' k, rg_esize out = 1 /\ range_ok out /\ proc_try_read x st p out = (st', out', RVal k) /\
     k = rg_count out' /\ ~ prefix_of (rg_mem out') c).
Proof.
  exists short_world, (Proc (fun _ => Some [x01; x02; x03]) 0), 0, [x01; x02; x03].
  split; [intros ? ?; reflexivity|]. split; [reflexivity|]. split.
  - eexists _, _. split; [vm_compute; reflexivity|]. intros (l & E). discriminate.
  - exists (Range 1 2 [x55; x55]). eexists _, _, _. split; [reflexivity|]. split; [reflexivity|]. split; [vm_compute; reflexivity|].
    split; [reflexivity|]. intros (l & E). discriminate.
Qed.

Lemma wide_read_refuted : exists x st p c out st' out' k,
  honest x /\ full_reads (wd_os x) /\ pr_fs st p = Some c /\ range_ok out /\ lenN c = lenN (rg_mem out) /\
  proc_try_read x st p out = (st', out', RVal k) /\ k = rg_count out /\ k = rg_count out' /\ rg_mem out' <> c.
Proof.
  exists good_world, (Proc (fun _ => Some [x01; x02; x03; x04]) 0), 0, [x01; x02; x03; x04], (Range 2 2 [x55; x55; x55; x55]).
  eexists _, _, _. split; [intros ? ?; reflexivity|]. split; [intros n; cbn; lia|]. split; [reflexivity|]. split; [reflexivity|]. split; [reflexivity|].
  split; [vm_compute; reflexivity|]. split; [reflexivity|]. split; [reflexivity|discriminate].
Qed.

(** ** What the files hold *)
Lemma write_opens x st p n r : n <= lenN (rg_mem r) ->
  snd (proc_step st (PWrite x p n r)) = PWriteO (if writable x st p then Ok tt else Throw invalid_argument) /\
  snd (proc_step st (PTryWrite x p n r)) = PTryWriteO (Ok (writable x st p)).
Proof.
  intros L. cbn [proc_step]. unfold proc_write, proc_try_write, open_for_write, open_write, source_bytes, writable.
  rewrite (proj2 (N.leb_le _ _) L). destruct (_ <? _); cbn [andb]; [|split; reflexivity]. destruct (can_write _ p); split; reflexivity.
Qed.
Lemma step_files st c q : source_ok c -> pr_fs (fst (proc_step st c)) q = file_after q (pr_fs st q) (c, snd (proc_step st c)).
Proof.
  intros H. destruct c as [x p n|x p out|x p n r|x p n r]; cbn [proc_step].
  - unfold proc_read. opens. destruct (_ <? _); [|reflexivity]. destruct (can_read _ p); [|reflexivity].
    destruct (pr_fs st p); [|reflexivity]. cbv zeta. destruct (make_bytes _ _); reflexivity.
  - unfold proc_try_read. opens. destruct (_ <? _); [|reflexivity]. destruct (can_read _ p); [|reflexivity].
    destruct (pr_fs st p); reflexivity.
  - cbn [source_ok] in H. unfold proc_write, open_for_write, open_write, source_bytes. rewrite (proj2 (N.leb_le _ _) H).
    destruct (_ <? _); [|reflexivity]. destruct (can_write _ p); [|reflexivity]. unfold close_handle, put_bytes. cbn [fst snd pr_fs pr_open file_after].
    rewrite over_emptied. unfold fs_set. destruct (q =? p); reflexivity.
  - cbn [source_ok] in H. unfold proc_try_write, open_for_write, open_write, source_bytes. rewrite (proj2 (N.leb_le _ _) H).
    destruct (_ <? _); [|reflexivity]. destruct (can_write _ p); [|reflexivity]. unfold close_handle, put_bytes. cbn [fst snd pr_fs pr_open file_after].
    rewrite over_emptied. unfold fs_set. destruct (q =? p); reflexivity.
Qed.
Lemma run_files q : forall cs st, Forall source_ok cs ->
  pr_fs (fst (proc_run st cs)) q = fold_left (file_after q) (combine cs (snd (proc_run st cs))) (pr_fs st q).
Proof.
  induction cs as [|c cs IH]; intros st H; [reflexivity|]. cbn [proc_run]. pose proof (step_files st c q (Forall_inv H)) as E.
  destruct (proc_step st c) as [st1 o]. cbn [fst snd] in E. specialize (IH st1 (Forall_inv_tail H)).
  destruct (proc_run st1 cs) as [st2 os]. cbn [fst snd combine fold_left] in *. rewrite IH, E. reflexivity.
Qed.
