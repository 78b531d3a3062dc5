From Coq Require Import List. Import ListNotations.
From Verif Require Import Base BaseFacts Io_Model Io_Spec Io_Proofs IoRead_Proofs IoThread_Model IoThread_Spec.

(** ** The accesses of a call *)

Lemma stores_app a : forall pos b, stores pos (a ++ b) = stores pos a ++ stores (pos + lenN a) b.
Proof.
  induction a as [|x a IH]; intros pos b; cbn [app stores]; [now rewrite lenN_nil, N.add_0_r|].
  rewrite IH, lenN_cons. do 3 f_equal. lia.
Qed.

Lemma range_stores_eq ev s vs : Forall (value_ok s) vs -> forall pos,
  range_stores ev s vs pos = stores pos (concat (map (bytes_of_value ev (TPlain s)) vs)).
Proof.
  induction 1 as [|v vs Hv Hvs IH]; intros pos; cbn [range_stores map concat]; [reflexivity|].
  rewrite stores_app, IH. now rewrite (lenN_bytes_of_value ev (TPlain s) v Hv).
Qed.

Lemma range_written_eq s vs : forall done, done + lenN vs * value_size (TPlain s) < size_mod ->
  range_written s vs done = done + lenN vs * value_size (TPlain s).
Proof.
  induction vs as [|v vs IH]; intros done H; cbn [range_written]; [rewrite (@lenN_nil value) in *; lia|].
  rewrite lenN_cons in *. rewrite IH; rewrite sz_add_small; lia.
Qed.

Lemma arg_stores_eq ev a pos : arg_ok a -> arg_stores ev a pos = stores pos (enc_arg ev a).
Proof. destruct a as [t v|s vs]; intros H; [reflexivity|]. destruct H as [_ H]. now apply range_stores_eq. Qed.

Lemma arg_written_eq a : arg_bytes a < size_mod -> arg_written a = arg_bytes a.
Proof.
  destruct a as [t v|s vs]; intros H; [reflexivity|]. cbn [arg_written arg_bytes] in *.
  change (N.of_nat (scalar_bytes s)) with (value_size (TPlain s)) in *. rewrite range_written_eq; lia.
Qed.

Lemma args_stores_eq ev args : Forall arg_ok args -> args_size args < size_mod -> forall pos,
  args_stores ev args pos = stores pos (enc_args ev args).
Proof.
  induction 1 as [|a r Ha Hr IH]; intros Hs pos; cbn [args_stores]; [reflexivity|].
  change (args_size (a :: r)) with (arg_bytes a + args_size r) in Hs.
  change (enc_args ev (a :: r)) with (enc_arg ev a ++ enc_args ev r).
  rewrite stores_app, arg_stores_eq, IH, arg_size_small, lenN_enc_arg by (assumption || lia). reflexivity.
Qed.

Lemma args_written_eq args : args_size args < size_mod -> args_written args = args_size args.
Proof.
  induction args as [|a r IH]; intros Hs; [reflexivity|].
  change (args_size (a :: r)) with (arg_bytes a + args_size r) in *. cbn [args_written].
  rewrite arg_written_eq by lia. destruct r as [|a' r']; [unfold args_size; cbn; lia|].
  rewrite IH by lia. apply sz_add_small. lia.
Qed.

Lemma loads_app n m : forall pos, loads pos (n + m) = loads pos n ++ loads (pos + N.of_nat n) m.
Proof.
  induction n as [|n IH]; intros pos; cbn [loads Nat.add app]; [now rewrite N.add_0_r|].
  rewrite IH. do 3 f_equal. lia.
Qed.

Lemma types_loads_eq ts : forall pos, types_loads ts pos = loads pos (N.to_nat (types_size ts)).
Proof.
  induction ts as [|t r IH]; intros pos; cbn [types_loads]; [reflexivity|].
  rewrite types_size_cons, N2Nat.inj_add, loads_app, IH. do 2 f_equal. lia.
Qed.

Lemma values_of_eq ev ts : forall bs, values_of ev ts bs = decode_all ev ts bs.
Proof. induction ts as [|t r IH]; intros bs; cbn [values_of decode_all]; [reflexivity|]. now rewrite IH. Qed.

Definition enc_call (ev : env) (c : call) : list byte :=
  match c with CWriteAt args _ => enc_args ev args | CTryWriteAt a _ => enc_arg ev a | _ => [] end.
Definition acts_of (ev : env) (c : call) (len : N) : list access :=
  if call_pos c + call_size c <=? len
  then if writes c then stores (call_pos c) (enc_call ev c) else loads (call_pos c) (N.to_nat (call_size c))
  else [].

Lemma lenN_enc_call ev c : call_ok c -> writes c = true -> lenN (enc_call ev c) = call_size c.
Proof.
  intros (_ & _ & H) W. destruct c; try discriminate W; cbn [enc_call call_size].
  - now apply lenN_enc_args.
  - now apply lenN_enc_arg.
Qed.

Lemma call_begin_acts ev c len : call_ok c -> len < size_mod -> fst (call_begin ev c len) = acts_of ev c len.
Proof.
  intros (Hp & Hs & H) Hl. unfold acts_of. pose proof (sz_add_wraps _ _ Hp Hs) as W.
  destruct c as [args pos|ts pos|a pos|t pos]; cbn [call_pos call_size writes call_begin enc_call] in *.
  - rewrite byte_count_small by lia.
    destruct (N.ltb_spec (sz_add pos (args_size args)) pos) as [L|L].
    + rewrite (proj2 (N.leb_gt _ _)); [reflexivity|]. destruct (N.le_gt_cases size_mod (pos + args_size args)); [lia|].
      rewrite sz_add_small in L by lia. lia.
    + assert (pos + args_size args < size_mod) as F by (destruct (N.le_gt_cases size_mod (pos + args_size args)) as [G|G]; [apply W in G; lia|exact G]).
      rewrite sz_add_small by lia. rewrite N.ltb_antisym. destruct (N.leb_spec (pos + args_size args) len); cbn [negb fst]; [|reflexivity].
      now apply args_stores_eq.
  - rewrite byte_count_ty_small by lia.
    destruct (N.ltb_spec (sz_add pos (types_size ts)) pos) as [L|L].
    + rewrite (proj2 (N.leb_gt _ _)); [reflexivity|]. destruct (N.le_gt_cases size_mod (pos + types_size ts)); [lia|].
      rewrite sz_add_small in L by lia. lia.
    + destruct (N.ltb_spec len pos); [now rewrite (proj2 (N.leb_gt _ _)) by lia|].
      destruct (N.ltb_spec (len - pos) (types_size ts)); [now rewrite (proj2 (N.leb_gt _ _)) by lia|].
      rewrite (proj2 (N.leb_le _ _)) by lia. cbn [fst]. apply types_loads_eq.
  - rewrite arg_size_small by lia.
    destruct (N.ltb_spec (sz_add pos (arg_bytes a)) pos) as [L|L].
    + rewrite (proj2 (N.leb_gt _ _)); [reflexivity|]. destruct (N.le_gt_cases size_mod (pos + arg_bytes a)); [lia|].
      rewrite sz_add_small in L by lia. lia.
    + destruct (N.leb_spec len pos).
      { destruct (N.leb_spec (pos + arg_bytes a) len); cbn [fst]; [|reflexivity].
        pose proof (lenN_enc_arg ev a H). assert (enc_arg ev a = []) as -> by (apply lenN_0; lia). reflexivity. }
      destruct (N.ltb_spec (len - pos) (arg_bytes a)); [now rewrite (proj2 (N.leb_gt _ _)) by lia|].
      rewrite (proj2 (N.leb_le _ _)) by lia. cbn [fst]. now apply arg_stores_eq.
  - destruct (N.ltb_spec (sz_add pos (value_size t)) pos) as [L|L].
    + rewrite (proj2 (N.leb_gt _ _)); [reflexivity|]. destruct (N.le_gt_cases size_mod (pos + value_size t)); [lia|].
      rewrite sz_add_small in L by lia. lia.
    + pose proof (value_size_pos t H).
      destruct (N.leb_spec len pos); [now rewrite (proj2 (N.leb_gt _ _)) by lia|].
      destruct (N.ltb_spec (len - pos) (value_size t)); [now rewrite (proj2 (N.leb_gt _ _)) by lia|].
      rewrite (proj2 (N.leb_le _ _)) by lia. reflexivity.
Qed.

Lemma in_stores a bs : forall pos, In a (stores pos bs) -> is_store a = true /\ pos <= access_at a < pos + lenN bs.
Proof.
  induction bs as [|b bs IH]; intros pos; cbn [stores In]; [tauto|]. rewrite lenN_cons. intros [<-|H].
  - cbn. split; [reflexivity|lia].
  - apply IH in H. split; [tauto|lia].
Qed.
Lemma in_loads a n : forall pos, In a (loads pos n) -> is_store a = false /\ pos <= access_at a < pos + N.of_nat n.
Proof.
  induction n as [|n IH]; intros pos; cbn [loads In]; [tauto|]. intros [<-|H].
  - cbn. split; [reflexivity|lia].
  - apply IH in H. split; [tauto|lia].
Qed.
Lemma stores_all bs : forall pos k, pos <= k < pos + lenN bs -> exists b, In (AStore k b) (stores pos bs).
Proof.
  induction bs as [|b bs IH]; intros pos k H; [rewrite lenN_nil in H; lia|]. rewrite lenN_cons in H. cbn [stores In].
  destruct (N.eq_dec k pos) as [->|]; [exists b; now left|].
  destruct (IH (pos + 1) k) as [x X]; [lia|]. exists x. now right.
Qed.
Lemma loads_all n : forall pos k, pos <= k < pos + N.of_nat n -> In (ALoad k) (loads pos n).
Proof.
  induction n as [|n IH]; intros pos k H; [lia|]. cbn [loads In].
  destruct (N.eq_dec k pos) as [->|]; [now left|]. right. apply IH. lia.
Qed.

Lemma in_acts ev c len a : call_ok c -> In a (acts_of ev c len) ->
  touches len c (access_at a) /\ is_store a = writes c.
Proof.
  intros Hc. unfold acts_of, touches. destruct (N.leb_spec (call_pos c + call_size c) len); [|intros []].
  destruct (writes c) eqn:W; intros I.
  - apply in_stores in I. rewrite lenN_enc_call in I by assumption. intuition lia.
  - apply in_loads in I. rewrite N2Nat.id in I. intuition lia.
Qed.
Lemma acts_all ev c len k : call_ok c -> touches len c k ->
  exists a, In a (acts_of ev c len) /\ access_at a = k /\ is_store a = writes c.
Proof.
  intros Hc [F T]. unfold acts_of. rewrite (proj2 (N.leb_le _ _) F). destruct (writes c) eqn:W.
  - destruct (stores_all (enc_call ev c) (call_pos c) k) as [b B]; [rewrite lenN_enc_call by assumption; lia|].
    exists (AStore k b). auto.
  - exists (ALoad k). split; [apply loads_all; rewrite N2Nat.id; lia|auto].
Qed.

(** ** A call carried out access by access *)

Definition put1 (buf : list byte) (i : N) (b : byte) : list byte := takeN i buf ++ b :: dropN (i + 1) buf.
Fixpoint run_acts (buf : list byte) (acts : list access) (got : list byte) : list byte * list byte :=
  match acts with
  | [] => (buf, got)
  | ALoad i :: r => run_acts buf r (got ++ [nth (N.to_nat i) buf x00])
  | AStore i b :: r => run_acts (put1 buf i b) r got
  end.
Lemma run_acts_app a : forall buf b got,
  run_acts buf (a ++ b) got = let '(buf1, got1) := run_acts buf a got in run_acts buf1 b got1.
Proof. induction a as [|[i|i x] a IH]; intros buf b got; cbn [app run_acts]; [reflexivity|apply IH|apply IH]. Qed.

Lemma put1_splice buf i b : put1 buf i b = splice buf i [b].
Proof. unfold put1, splice. reflexivity. Qed.

Lemma run_stores bs : forall buf pos got, pos + lenN bs <= lenN buf ->
  run_acts buf (stores pos bs) got = (splice buf pos bs, got).
Proof.
  induction bs as [|b bs IH]; intros buf pos got H; cbn [stores run_acts]; [rewrite lenN_nil in H; now rewrite splice_nil by lia|].
  rewrite lenN_cons in H. rewrite put1_splice. rewrite IH by (rewrite lenN_splice; rewrite ?lenN_cons, ?lenN_nil; lia).
  f_equal. change (pos + 1) with (pos + lenN [b]). rewrite splice_splice by (rewrite lenN_cons, lenN_nil; lia). reflexivity.
Qed.

Lemma nth_dropN buf pos : pos < lenN buf -> dropN pos buf = nth (N.to_nat pos) buf x00 :: dropN (pos + 1) buf.
Proof.
  unfold dropN, lenN. intros H. replace (N.to_nat (pos + 1)) with (S (N.to_nat pos)) by lia.
  assert (L : (N.to_nat pos < length buf)%nat) by lia. clear H. revert L. generalize (N.to_nat pos). clear pos.
  induction buf as [|x buf IH]; intros [|n] L; cbn [length] in L; [lia|lia|reflexivity|].
  cbn [skipn nth]. apply IH. lia.
Qed.

Lemma run_loads n : forall buf pos got, pos + N.of_nat n <= lenN buf ->
  run_acts buf (loads pos n) got = (buf, got ++ slice buf pos (N.of_nat n)).
Proof.
  induction n as [|n IH]; intros buf pos got H; cbn [loads run_acts].
  - unfold slice. change (N.of_nat 0) with 0. now rewrite takeN_0, app_nil_r.
  - rewrite IH by lia. f_equal. rewrite <- app_assoc. f_equal. unfold slice.
    rewrite (nth_dropN buf pos) by lia. replace (N.of_nat (S n)) with (1 + N.of_nat n) by lia.
    rewrite takeN_plus. reflexivity.
Qed.

Lemma call_runs ev c buf b' got' : call_ok c -> lenN buf < size_mod ->
  run_acts buf (acts_of ev c (lenN buf)) [] = (b', got') ->
  call_alone ev c buf = (b', snd (call_begin ev c (lenN buf)) got').
Proof.
  intros Hc Hl E. pose proof Hc as (Hp & Hs & H). unfold acts_of in E. pose proof (sz_add_wraps _ _ Hp Hs) as W.
  destruct c as [args pos|ts pos|a pos|t pos]; cbn [call_pos call_size writes call_begin enc_call call_alone] in *.
  - rewrite write_at_char by assumption. rewrite byte_count_small by lia.
    destruct (N.leb_spec size_mod (pos + args_size args)) as [L|L].
    + rewrite (proj2 (N.leb_gt _ _)) in E by lia. rewrite (proj2 (N.ltb_lt _ _)) by (apply W; lia).
      injection E as <- <-. reflexivity.
    + rewrite sz_add_small by lia. rewrite (proj2 (N.ltb_ge _ pos)) by lia.
      rewrite N.ltb_antisym. destruct (N.leb_spec (pos + args_size args) (lenN buf)); cbn [negb]; [|now injection E as <- <-].
      rewrite run_stores in E by (rewrite lenN_enc_args by assumption; lia). injection E as <- <-. cbn [snd].
      rewrite args_written_eq, sz_add_small by lia. reflexivity.
  - rewrite read_at_char by assumption. rewrite byte_count_ty_small by lia.
    destruct (N.leb_spec size_mod (pos + types_size ts)) as [L|L].
    + rewrite (proj2 (N.leb_gt _ _)) in E by lia. rewrite (proj2 (N.ltb_lt _ _)) by (apply W; lia).
      injection E as <- <-. reflexivity.
    + rewrite sz_add_small by lia. rewrite (proj2 (N.ltb_ge _ pos)) by lia.
      destruct (N.leb_spec (pos + types_size ts) (lenN buf)).
      * rewrite (proj2 (N.ltb_ge (lenN buf) (pos + types_size ts))), (proj2 (N.ltb_ge (lenN buf) pos)), (proj2 (N.ltb_ge (lenN buf - pos) (types_size ts))) by lia.
        rewrite run_loads in E by (rewrite N2Nat.id; lia).
        injection E as <- <-. cbn [snd app]. rewrite N2Nat.id. unfold slice.
        now rewrite (decode_all_take ev ts (dropN pos buf)) by (rewrite lenN_dropN; lia).
      * injection E as <- <-. rewrite (proj2 (N.ltb_lt _ _)) by lia.
        destruct (N.ltb_spec (lenN buf) pos); [reflexivity|]. now rewrite (proj2 (N.ltb_lt _ _)) by lia.
  - rewrite try_write_at1_char by assumption. rewrite arg_size_small by lia.
    destruct (N.leb_spec size_mod (pos + arg_bytes a)) as [L|L].
    + rewrite (proj2 (N.leb_gt _ _)) in E by lia. rewrite (proj2 (N.ltb_lt _ _)) by (apply W; lia).
      injection E as <- <-. reflexivity.
    + rewrite sz_add_small by lia. rewrite (proj2 (N.ltb_ge _ pos)) by lia.
      destruct (N.leb_spec (lenN buf) pos); cbn [orb].
      { destruct (N.leb_spec (pos + arg_bytes a) (lenN buf)); [|now injection E as <- <-].
        pose proof (lenN_enc_arg ev a H). assert (enc_arg ev a = []) as Z by (apply lenN_0; lia). rewrite Z in E.
        injection E as <- <-. reflexivity. }
      destruct (N.leb_spec (pos + arg_bytes a) (lenN buf)).
      * rewrite !(proj2 (N.ltb_ge _ _)) by lia. rewrite run_stores in E by (rewrite lenN_enc_arg by assumption; lia).
        injection E as <- <-. cbn [snd]. now rewrite arg_written_eq, sz_add_small by lia.
      * injection E as <- <-. now rewrite !(proj2 (N.ltb_lt _ _)) by lia.
  - rewrite try_read_at1_char by assumption. pose proof (value_size_pos t H).
    destruct (N.leb_spec size_mod (pos + value_size t)) as [L|L].
    + rewrite (proj2 (N.leb_gt _ _)) in E by lia. rewrite (proj2 (N.ltb_lt _ _)) by (apply W; lia).
      injection E as <- <-. reflexivity.
    + rewrite sz_add_small by lia. rewrite (proj2 (N.ltb_ge _ pos)) by lia.
      destruct (N.leb_spec (pos + value_size t) (lenN buf)).
      * rewrite !(proj2 (N.ltb_ge _ _)) by lia. rewrite (proj2 (N.leb_gt _ _)) by lia.
        rewrite run_loads in E by (rewrite N2Nat.id; lia). injection E as <- <-. cbn [snd app]. now rewrite N2Nat.id.
      * injection E as <- <-. rewrite (proj2 (N.ltb_lt _ _)) by lia.
        destruct (N.leb_spec (lenN buf) pos); [reflexivity|]. now rewrite (proj2 (N.ltb_lt _ _)) by lia.
Qed.

(** ** The invariant of the threads *)

Lemma lenN_put1 buf k b : k < lenN buf -> lenN (put1 buf k b) = lenN buf.
Proof. intros H. rewrite put1_splice. apply lenN_splice. rewrite lenN_cons, lenN_nil. lia. Qed.

Lemma nth_put1 buf k b n : k < lenN buf ->
  nth_error (put1 buf k b) n = if N.of_nat n =? k then Some b else nth_error buf n.
Proof.
  intros H. unfold put1.
  assert (Lt : length (takeN k buf) = N.to_nat k) by (pose proof (lenN_takeN k buf) as E; unfold lenN in *; lia).
  destruct (N.eqb_spec (N.of_nat n) k) as [E|E].
  - rewrite nth_error_app2, Lt by lia. replace (n - N.to_nat k)%nat with O by lia. reflexivity.
  - destruct (Nat.lt_ge_cases n (N.to_nat k)) as [G|G].
    + rewrite nth_error_app1 by lia. rewrite nth_error_takeN, (proj2 (N.ltb_lt _ _)) by lia. reflexivity.
    + rewrite nth_error_app2, Lt by lia. replace (n - N.to_nat k)%nat with (S (n - N.to_nat k - 1)) by lia.
      cbn [nth_error]. rewrite nth_error_dropN. f_equal. lia.
Qed.

Lemma call_alone_acts ev c buf : call_ok c -> lenN buf < size_mod ->
  exists b' got', run_acts buf (acts_of ev c (lenN buf)) [] = (b', got') /\
    call_alone ev c buf = (b', snd (call_begin ev c (lenN buf)) got').
Proof.
  intros Hc Hl. destruct (run_acts buf (acts_of ev c (lenN buf)) []) as [b' got'] eqn:E.
  exists b', got'. split; [reflexivity|now apply call_runs].
Qed.

Lemma run_acts_len acts : forall buf got b' got', Forall (fun a => access_at a < lenN buf) acts ->
  run_acts buf acts got = (b', got') -> lenN b' = lenN buf.
Proof.
  induction acts as [|[i|i x] acts IH]; intros buf got b' got' F E; cbn [run_acts] in E.
  - now injection E as <- <-.
  - inversion F; subst. eapply IH; eauto.
  - inversion F as [|? ? Fi Fr]; subst. cbn [access_at] in Fi. rewrite <- (lenN_put1 buf i x) by exact Fi.
    eapply IH; [|exact E]. now rewrite lenN_put1 by exact Fi.
Qed.

Lemma acts_inside ev c len : call_ok c -> Forall (fun a => access_at a < len) (acts_of ev c len).
Proof.
  intros Hc. apply Forall_forall. intros a I. apply in_acts in I; [|exact Hc]. destruct I as [[F T] _]. lia.
Qed.

Lemma alone_app ev c1 : forall c2 buf, alone ev (c1 ++ c2) buf =
  let '(b1, x1) := alone ev c1 buf in let '(b2, x2) := alone ev c2 b1 in (b2, x1 ++ x2).
Proof.
  induction c1 as [|c c1 IH]; intros c2 buf; cbn [app alone].
  - now destruct (alone ev c2 buf).
  - destruct (call_alone ev c buf) as [b x]. rewrite IH. destruct (alone ev c1 b) as [b1 x1].
    now destruct (alone ev c2 b1).
Qed.

Definition accs (i : N) (tr : list (N * access)) : list access :=
  map snd (filter (fun p => fst p =? i) (rev tr)).
Lemma accs_cons i j a tr : accs i ((j, a) :: tr) = accs i tr ++ if j =? i then [a] else [].
Proof.
  unfold accs. cbn [rev]. rewrite filter_app, map_app. cbn [filter fst]. now destruct (j =? i).
Qed.
Lemma in_accs i a tr : In (i, a) tr <-> In a (accs i tr).
Proof.
  unfold accs. rewrite in_map_iff. split.
  - intros I. exists (i, a). split; [reflexivity|]. apply filter_In. cbn [fst]. rewrite N.eqb_refl, <- in_rev. auto.
  - intros ([j b] & <- & I). apply filter_In in I. cbn [fst snd] in *. destruct I as [I E]. apply N.eqb_eq in E. subst.
    now apply in_rev in I.
Qed.

Definition got_of (t : thread) : list byte := match th_now t with Some r => ru_got r | None => [] end.
Definition mine (len : N) (cs : list call) (k : N) : Prop := exists c, In c cs /\ touches len c k.
Definition written (len : N) (progs : N -> list call) (k : N) : Prop :=
  exists i c, In c (progs i) /\ writes c = true /\ touches len c k.

Section Inv.
Context (ev : env) (buf : list byte) (progs : N -> list call).
Let L := lenN buf.

Definition shape (i : N) (t : thread) (tr : list (N * access)) (c1 : list call) (before : list access) : Prop :=
  match th_now t with
  | None => before = [] /\ progs i = c1 ++ th_calls t
  | Some r => exists c, progs i = c1 ++ c :: th_calls t /\ acts_of ev c L = before ++ ru_acts r /\
                        ru_end r = snd (call_begin ev c L)
  end /\ accs i tr = concat (map (fun c => acts_of ev c L) c1) ++ before.
Definition values (i : N) (t : thread) (now : list byte) (c1 : list call) (before : list access) : Prop :=
  exists b1 bi, alone ev c1 buf = (b1, th_rets t) /\ lenN b1 = L /\ run_acts b1 before [] = (bi, got_of t) /\
    lenN bi = L /\ forall k, mine L (progs i) k -> nth_error bi (N.to_nat k) = nth_error now (N.to_nat k).
Definition inv (st : system) : Prop :=
  sys_ub st = false /\ lenN (sys_buf st) = L /\
  (forall k, ~ written L progs k -> nth_error (sys_buf st) (N.to_nat k) = nth_error buf (N.to_nat k)) /\
  forall i, exists c1 before, shape i (sys_thread st i) (sys_trace st) c1 before /\
    (apart L progs -> values i (sys_thread st i) (sys_buf st) c1 before).

Hypothesis OK : progs_ok progs.
Hypothesis SMALL : L < size_mod.

Lemma inv_start : inv (sys_start buf progs).
Proof.
  repeat split; try reflexivity. intros i. exists [], []. split.
  - split; [split; reflexivity|reflexivity].
  - intros _. exists buf, buf. repeat split; reflexivity.
Qed.

Lemma shape_other i j a t tr c1 before : i <> j -> shape i t tr c1 before -> shape i t ((j, a) :: tr) c1 before.
Proof.
  intros D [A B]. split; [exact A|]. rewrite accs_cons, (proj2 (N.eqb_neq j i)), app_nil_r by congruence. exact B.
Qed.

Lemma prog_ok i c1 c r : progs i = c1 ++ c :: r -> call_ok c.
Proof. intros E. pose proof (OK i) as F. rewrite E in F. apply Forall_elt in F. exact F. Qed.

Lemma inv_step st i : inv st -> inv (sys_step ev st i).
Proof.
  intros (U & Len & Rest & T). unfold sys_step. destruct (T i) as (c1 & before & Sh & Va).
  destruct (sys_thread st i) as [calls now rets] eqn:Et. unfold th_step. cbn [th_now th_calls th_rets].
  destruct now as [[acts got fin]|].
  - (* inside a call *)
    destruct Sh as [(c & Ep & Ea & Ef) Tr]. cbn [th_now th_calls ru_acts ru_got ru_end] in *.
    pose proof (prog_ok _ _ _ _ Ep) as Hc. pose proof (acts_inside ev c L Hc) as In1. rewrite Ea in In1.
    destruct acts as [|a more].
    + (* return *)
      rewrite app_nil_r in Ea. split; [now rewrite U|]. split; [exact Len|]. split; [exact Rest|].
      intros j. cbn [sys_thread sys_trace sys_buf]. destruct (N.eqb_spec j i) as [->|D]; [|exact (T j)].
      exists (c1 ++ [c]), []. split.
      * split; cbn [th_now th_calls].
        -- split; [reflexivity|]. rewrite <- app_assoc. exact Ep.
        -- rewrite Tr, map_app, concat_app, app_nil_r. cbn [map concat]. now rewrite app_nil_r, Ea.
      * intros AP. destruct (Va AP) as (b1 & bi & A1 & A2 & A3 & A4 & A5). cbn [got_of th_now ru_got th_rets] in *.
        exists bi, bi. cbn [got_of th_now]. repeat split; try assumption.
        rewrite alone_app, A1. cbn [alone].
        rewrite (call_runs ev c b1 bi got); [now rewrite A2, <- Ef|exact Hc|lia|]. now rewrite A2, Ea.
    + (* one access *)
      assert (Ha : access_at a < L) by (apply Forall_elt in In1; exact In1).
      assert (Hin : In a (acts_of ev c L)) by (rewrite Ea; apply in_elt).
      destruct (in_acts ev c L a Hc Hin) as [To Wr].
      destruct a as [k|k b]; cbn [access_at is_store] in *.
      * destruct (nth_error (sys_buf st) (N.to_nat k)) as [b|] eqn:Eb;
          [|apply nth_error_None in Eb; unfold lenN in *; lia].
        split; [now rewrite U|]. split; [exact Len|]. split; [exact Rest|].
        intros j. cbn [sys_thread sys_trace sys_buf]. destruct (N.eqb_spec j i) as [->|D].
        -- exists c1, (before ++ [ALoad k]). split.
           ++ split; cbn [th_now th_calls ru_acts ru_end].
              ** exists c. rewrite <- app_assoc. auto.
              ** rewrite accs_cons, N.eqb_refl, Tr, <- app_assoc. reflexivity.
           ++ intros AP. destruct (Va AP) as (b1 & bi & A1 & A2 & A3 & A4 & A5). cbn [got_of th_now ru_got th_rets] in *.
              exists b1, bi. cbn [got_of th_now ru_got th_rets]. repeat split; try assumption.
              rewrite run_acts_app, A3. cbn [run_acts]. do 3 f_equal.
              apply nth_error_nth. rewrite A5; [exact Eb|]. exists c. split; [rewrite Ep; apply in_elt|exact To].
        -- destruct (T j) as (d1 & bf & Sj & Vj). exists d1, bf. split; [now apply shape_other|exact Vj].
      * rewrite (proj2 (N.ltb_lt k (lenN (sys_buf st)))) by lia.
        change (takeN k (sys_buf st) ++ b :: dropN (k + 1) (sys_buf st)) with (put1 (sys_buf st) k b).
        assert (Hw : k < lenN (sys_buf st)) by lia.
        split; [now rewrite U|]. cbn [sys_thread sys_trace sys_buf]. split; [rewrite lenN_put1 by exact Hw; exact Len|]. split.
        { intros m Nm. rewrite nth_put1 by exact Hw. rewrite N2Nat.id. destruct (N.eqb_spec m k) as [->|]; [|now apply Rest].
          exfalso. apply Nm. exists i, c. split; [rewrite Ep; apply in_elt|]. auto. }
        intros j. destruct (N.eqb_spec j i) as [->|D].
        -- exists c1, (before ++ [AStore k b]). split.
           ++ split; cbn [th_now th_calls ru_acts ru_end].
              ** exists c. rewrite <- app_assoc. auto.
              ** rewrite accs_cons, N.eqb_refl, Tr, <- app_assoc. reflexivity.
           ++ intros AP. destruct (Va AP) as (b1 & bi & A1 & A2 & A3 & A4 & A5). cbn [got_of th_now ru_got th_rets] in *.
              exists b1, (put1 bi k b). cbn [got_of th_now ru_got th_rets]. repeat split; try assumption.
              ** rewrite run_acts_app, A3. reflexivity.
              ** rewrite lenN_put1; lia.
              ** intros m M. rewrite !nth_put1 by lia. destruct (N.of_nat (N.to_nat m) =? k); [reflexivity|now apply A5].
        -- destruct (T j) as (d1 & bf & Sj & Vj). exists d1, bf. split; [now apply shape_other|].
           intros AP. destruct (Vj AP) as (b1 & bi & A1 & A2 & A3 & A4 & A5). exists b1, bi. repeat split; try assumption.
           intros m M. rewrite nth_put1 by exact Hw. rewrite N2Nat.id. destruct (N.eqb_spec m k) as [->|]; [|now apply A5].
           exfalso. destruct M as (d & Id & Td). assert (Ic : In c (progs i)) by (rewrite Ep; apply in_elt).
           exact (AP i j c d k (not_eq_sym D) Ic Id (eq_sym Wr) To Td).
  - destruct Sh as [[-> Ep] Tr]. cbn [th_now th_calls] in *. destruct calls as [|c cs].
    + split; [now rewrite U|]. split; [exact Len|]. split; [exact Rest|].
      intros j. cbn [sys_thread sys_trace sys_buf]. destruct (N.eqb_spec j i) as [->|D]; [|exact (T j)].
      rewrite <- Et. exact (T i).
    + destruct (call_begin ev c (lenN (sys_buf st))) as [acts fin] eqn:Eb. rewrite Len in Eb.
      pose proof (prog_ok _ _ _ _ Ep) as Hc. pose proof (call_begin_acts ev c L Hc SMALL) as Ea. rewrite Eb in Ea. cbn [fst] in Ea.
      split; [now rewrite U|]. split; [exact Len|]. split; [exact Rest|].
      intros j. cbn [sys_thread sys_trace sys_buf]. destruct (N.eqb_spec j i) as [->|D]; [|exact (T j)].
      exists c1, []. split.
      * split; cbn [th_now th_calls ru_acts ru_end]; [|exact Tr]. exists c. rewrite Eb. auto.
      * intros AP. destruct (Va AP) as (b1 & bi & A). exists b1, bi. exact A.
Qed.

Lemma inv_run sched : inv (sys_run ev sched (sys_start buf progs)).
Proof.
  unfold sys_run. assert (G : forall st, inv st -> inv (fold_left (sys_step ev) sched st)).
  { induction sched as [|i r IH]; intros st I; [exact I|]. cbn [fold_left]. apply IH. now apply inv_step. }
  apply G. apply inv_start.
Qed.

(** ** Progress *)

Definition cost (c : call) : nat := S (S (length (acts_of ev c L))).
Definition left_ (t : thread) : nat :=
  match th_now t with Some r => S (length (ru_acts r)) | None => 0 end + list_sum (map cost (th_calls t)).

Lemma left_0 t : left_ t = O -> th_calls t = [] /\ th_now t = None.
Proof.
  unfold left_. destruct t as [[|c cs] [r|] rets]; cbn [th_now th_calls map]; intros H; auto; exfalso.
  - lia.
  - lia.
  - change (list_sum (cost c :: map cost cs)) with (cost c + list_sum (map cost cs))%nat in H. unfold cost in H at 1. lia.
Qed.

Lemma left_step st i : inv st -> left_ (sys_thread (sys_step ev st i) i) = pred (left_ (sys_thread st i)).
Proof.
  intros (U & Len & Rest & T). unfold sys_step. destruct (T i) as (c1 & before & Sh & _).
  destruct (sys_thread st i) as [calls now rets] eqn:Et. unfold th_step. cbn [th_now th_calls th_rets].
  destruct now as [[acts got fin]|].
  - destruct Sh as [(c & Ep & Ea & Ef) Tr]. cbn [th_now th_calls ru_acts ru_got ru_end] in *.
    pose proof (prog_ok _ _ _ _ Ep) as Hc. pose proof (acts_inside ev c L Hc) as In1. rewrite Ea in In1.
    destruct acts as [|a more].
    + cbn [sys_thread]. rewrite N.eqb_refl. unfold left_. cbn [th_now th_calls ru_acts length]. lia.
    + assert (Ha : access_at a < L) by (apply Forall_elt in In1; exact In1).
      destruct a as [k|k b]; cbn [access_at] in Ha.
      * destruct (nth_error (sys_buf st) (N.to_nat k)) as [b|] eqn:Eb;
          [|apply nth_error_None in Eb; unfold lenN in *; lia].
        cbn [sys_thread]. rewrite N.eqb_refl. unfold left_. cbn [th_now th_calls ru_acts length]. lia.
      * rewrite (proj2 (N.ltb_lt k (lenN (sys_buf st)))) by lia.
        cbn [sys_thread]. rewrite N.eqb_refl. unfold left_. cbn [th_now th_calls ru_acts length]. lia.
  - destruct Sh as [[-> Ep] Tr]. cbn [th_now th_calls] in *. destruct calls as [|c cs].
    + cbn [sys_thread]. rewrite N.eqb_refl. reflexivity.
    + destruct (call_begin ev c (lenN (sys_buf st))) as [acts fin] eqn:Eb. rewrite Len in Eb.
      pose proof (prog_ok _ _ _ _ Ep) as Hc. pose proof (call_begin_acts ev c L Hc SMALL) as Ea. rewrite Eb in Ea. cbn [fst] in Ea.
      cbn [sys_thread]. rewrite N.eqb_refl. unfold left_. cbn [th_now th_calls ru_acts map]. rewrite Ea.
      change (list_sum (cost c :: map cost cs)) with (cost c + list_sum (map cost cs))%nat. unfold cost at 2. lia.
Qed.

Lemma step_other st i j : i <> j -> sys_thread (sys_step ev st j) i = sys_thread st i.
Proof.
  intros D. unfold sys_step. destruct (th_step ev (sys_buf st) (sys_thread st j)) as [[[b t] a] ub]. cbn [sys_thread].
  now rewrite (proj2 (N.eqb_neq i j)) by exact D.
Qed.

Lemma left_run i sched : forall st, inv st ->
  left_ (sys_thread (fold_left (sys_step ev) sched st) i) = (left_ (sys_thread st i) - turns i sched)%nat.
Proof.
  induction sched as [|j r IH]; intros st I; cbn [fold_left]; [unfold turns; cbn [filter length]; lia|].
  rewrite IH by (now apply inv_step). unfold turns. cbn [filter]. destruct (N.eqb_spec i j) as [->|D].
  - rewrite left_step by exact I. cbn [length]. lia.
  - now rewrite step_other by exact D.
Qed.

Lemma finishes i : exists n, forall sched, (n <= turns i sched)%nat -> finished (sys_run ev sched (sys_start buf progs)) i.
Proof.
  exists (left_ (sys_thread (sys_start buf progs) i)). intros sched H. unfold finished, sys_run.
  apply left_0. rewrite left_run by apply inv_start. lia.
Qed.

(** ** What the threads can rely on *)

Lemma finished_shape st i : inv st -> finished st i ->
  accs i (sys_trace st) = concat (map (fun c => acts_of ev c L) (progs i)) /\
  (apart L progs -> exists b, alone ev (progs i) buf = (b, returned st i) /\
     forall k, mine L (progs i) k -> nth_error (sys_buf st) (N.to_nat k) = nth_error b (N.to_nat k)).
Proof.
  intros (_ & _ & _ & T) [F1 F2]. destruct (T i) as (c1 & before & [Sh Tr] & Va). rewrite F2 in Sh. destruct Sh as [-> Ep].
  rewrite F1, app_nil_r in Ep. rewrite Ep. split; [now rewrite Tr, app_nil_r|].
  intros AP. destruct (Va AP) as (b1 & bi & A1 & A2 & A3 & A4 & A5). cbn [run_acts] in A3. injection A3 as E _. subst bi.
  exists b1. split; [exact A1|]. rewrite <- Ep. intros k K. symmetry. now apply A5.
Qed.

Lemma as_alone sched i : apart L progs ->
  let st := sys_run ev sched (sys_start buf progs) in
  exists b xs, alone ev (progs i) buf = (b, xs) /\ (exists later, xs = returned st i ++ later) /\
    (finished st i -> returned st i = xs /\
       forall k, mine L (progs i) k -> nth_error (sys_buf st) (N.to_nat k) = nth_error b (N.to_nat k)).
Proof.
  intros AP st. pose proof (inv_run sched) as I. fold st in I. destruct (alone ev (progs i) buf) as [b xs] eqn:E.
  exists b, xs. split; [reflexivity|]. split.
  - destruct I as (_ & _ & _ & T). destruct (T i) as (c1 & before & [Sh _] & Va).
    destruct (Va AP) as (b1 & bi & A1 & _). assert (X : exists c2, progs i = c1 ++ c2).
    { destruct (th_now (sys_thread st i)); [destruct Sh as (c & -> & _)|destruct Sh as [_ ->]]; eauto. }
    destruct X as [c2 X]. rewrite X, alone_app, A1 in E. destruct (alone ev c2 b1) as [b2 x2]. injection E as <- <-.
    exists x2. reflexivity.
  - intros F. destruct (finished_shape st i I F) as [_ G]. destruct (G AP) as (b' & E' & K). rewrite E in E'.
    injection E' as <- ->. auto.
Qed.

Lemma rest sched : let st := sys_run ev sched (sys_start buf progs) in
  sys_ub st = false /\ lenN (sys_buf st) = L /\
  forall k, (forall i c, In c (progs i) -> writes c = true -> ~ touches L c k) ->
    nth_error (sys_buf st) (N.to_nat k) = nth_error buf (N.to_nat k).
Proof.
  intros st. destruct (inv_run sched) as (U & Len & Rest & _). repeat split; try assumption.
  intros k H. apply Rest. intros (i & c & A & B & C). exact (H i c A B C).
Qed.

Lemma in_trace sched i a : In (i, a) (sys_trace (sys_run ev sched (sys_start buf progs))) ->
  exists c, In c (progs i) /\ touches L c (access_at a) /\ is_store a = writes c.
Proof.
  destruct (inv_run sched) as (_ & _ & _ & T). destruct (T i) as (c1 & before & [Sh Tr] & _). intros I.
  apply in_accs in I. rewrite Tr in I. apply in_app_or in I.
  assert (X : exists c, In c (progs i) /\ In a (acts_of ev c L)).
  { destruct I as [I|I].
    - apply in_concat in I. destruct I as (l & Il & Ia). apply in_map_iff in Il. destruct Il as (c & <- & Ic).
      exists c. split; [|exact Ia].
      destruct (th_now _); [destruct Sh as (d & -> & _)|destruct Sh as [_ ->]]; apply in_or_app; now left.
    - destruct (th_now _); [destruct Sh as (c & E & Ea & _)|destruct Sh as [-> _]; destruct I].
      exists c. split; [rewrite E; apply in_elt|]. rewrite Ea. apply in_or_app. now left. }
  destruct X as (c & Ic & Ia). exists c. split; [exact Ic|]. apply (in_acts ev); [|exact Ia].
  pose proof (OK i) as F. rewrite Forall_forall in F. now apply F.
Qed.

Lemma turns_repeat_same i n : turns i (repeat i n) = n.
Proof. unfold turns. induction n as [|n IH]; [reflexivity|]. cbn [repeat filter]. rewrite N.eqb_refl. cbn [length]. now rewrite IH. Qed.
Lemma turns_app i a b : turns i (a ++ b) = (turns i a + turns i b)%nat.
Proof. unfold turns. now rewrite filter_app, app_length. Qed.

Lemma finished_accesses st i c k : inv st -> finished st i -> In c (progs i) -> touches L c k ->
  exists a, In (i, a) (sys_trace st) /\ access_at a = k /\ is_store a = writes c.
Proof.
  intros I F Ic To. destruct (finished_shape st i I F) as [G _].
  assert (Hc : call_ok c) by (pose proof (OK i) as X; rewrite Forall_forall in X; now apply X).
  destruct (acts_all ev c L k Hc To) as (a & Ia & Ea & Sa). exists a. split; [|auto]. apply in_accs. rewrite G.
  apply in_concat. exists (acts_of ev c L). split; [|exact Ia]. apply in_map_iff. eauto.
Qed.

Lemma race_iff : (forall sched, ~ race (sys_run ev sched (sys_start buf progs))) <-> apart L progs.
Proof.
  split.
  - intros NR i j c d k D Ic Id W Tc Td. destruct (finishes i) as [n Hn], (finishes j) as [m Hm].
    apply (NR (repeat i n ++ repeat j m)). set (st := sys_run _ _ _).
    assert (I : inv st) by apply inv_run.
    assert (Fi : finished st i) by (apply Hn; rewrite turns_app, turns_repeat_same; lia).
    assert (Fj : finished st j) by (apply Hm; rewrite turns_app, turns_repeat_same; lia).
    destruct (finished_accesses st i c k I Fi Ic Tc) as (a & Ia & Ea & Sa).
    destruct (finished_accesses st j d k I Fj Id Td) as (b & Ib & Eb & Sb).
    exists i, j, a, b. repeat split; try assumption; [congruence|]. left. congruence.
  - intros AP sched (i & j & a & b & Ia & Ib & D & E & S').
    destruct (in_trace sched i a Ia) as (c & Ic & Tc & Wc). destruct (in_trace sched j b Ib) as (d & Id & Td & Wd).
    destruct S' as [S'|S'].
    + apply (AP i j c d (access_at a)); try assumption; [congruence|now rewrite E].
    + apply (AP j i d c (access_at b)); try assumption; [congruence|congruence|now rewrite <- E].
Qed.
End Inv.

Lemma same_result ev buf progs : progs_ok progs -> lenN buf < size_mod -> apart (lenN buf) progs -> forall s1 s2,
  let st1 := sys_run ev s1 (sys_start buf progs) in
  let st2 := sys_run ev s2 (sys_start buf progs) in
  (forall i, finished st1 i) -> (forall i, finished st2 i) ->
  sys_buf st1 = sys_buf st2 /\ forall i, returned st1 i = returned st2 i.
Proof.
  intros OK Sm AP s1 s2 st1 st2 F1 F2. split.
  - apply nth_error_ext. intros n. rewrite <- (Nat2N.id n). set (k := N.of_nat n).
    assert (D : forall a b : option byte, a = b \/ a <> b).
    { intros [a|] [b|]; try (right; discriminate); [|now left]. destruct (Byte.byte_eq_dec a b); [left|right]; congruence. }
    destruct (D (nth_error (sys_buf st1) (N.to_nat k)) (nth_error (sys_buf st2) (N.to_nat k))) as [E|E]; [exact E|].
    assert (M : forall i c, In c (progs i) -> writes c = true -> ~ touches (lenN buf) c k).
    { intros i c Ic _ To. apply E.
      destruct (as_alone ev buf progs OK Sm s1 i AP) as (b & xs & A & _ & G). destruct (G (F1 i)) as [_ G1].
      destruct (as_alone ev buf progs OK Sm s2 i AP) as (b' & xs' & A' & _ & G'). destruct (G' (F2 i)) as [_ G2].
      rewrite A in A'. injection A' as <- <-. assert (X : mine (lenN buf) (progs i) k) by (exists c; auto).
      unfold st1, st2. now rewrite G1, G2. }
    destruct (rest ev buf progs OK Sm s1) as (_ & _ & R1). destruct (rest ev buf progs OK Sm s2) as (_ & _ & R2).
    unfold st1, st2. now rewrite R1, R2.
  - intros i. destruct (as_alone ev buf progs OK Sm s1 i AP) as (b & xs & A & _ & G). destruct (G (F1 i)) as [G1 _].
    destruct (as_alone ev buf progs OK Sm s2 i AP) as (b' & xs' & A' & _ & G'). destruct (G' (F2 i)) as [G2 _].
    rewrite A in A'. injection A' as <- <-. unfold st1, st2. now rewrite G1, G2.
Qed.

Lemma mixture : exists ev buf progs sched old new seen,
  progs_ok progs /\ lenN buf < size_mod /\
  progs 0 = [CWriteAt [AVal (TPlain (SInt 2 false)) (VInt new)] 0] /\ progs 1 = [CReadAt [TPlain (SInt 2 false)] 0] /\
  read_at ev [TPlain (SInt 2 false)] 0 buf = Ok [VInt old] /\
  returned (sys_run ev sched (sys_start buf progs)) 1 = [RetRead (Ok [VInt seen])] /\ seen <> old /\ seen <> new.
Proof.
  exists (Env little little), [x01; x02],
    (fun i => if i =? 0 then [CWriteAt [AVal (TPlain (SInt 2 false)) (VInt 1027)] 0]
              else if i =? 1 then [CReadAt [TPlain (SInt 2 false)] 0] else []),
    [0; 0; 1; 1; 1; 1], 513%Z, 1027%Z, 515%Z.
  split.
  { intros i. destruct (i =? 0), (i =? 1); try constructor; try constructor; unfold call_ok, size_mod; cbn; intuition; try reflexivity.
    all: repeat constructor; cbn; try lia. }
  repeat split; try reflexivity; discriminate.
Qed.

Lemma as_alone' ev buf progs sched i : progs_ok progs -> lenN buf < size_mod -> apart (lenN buf) progs ->
  let st := sys_run ev sched (sys_start buf progs) in
  exists b xs, alone ev (progs i) buf = (b, xs) /\ (exists later, xs = returned st i ++ later) /\
    (finished st i -> returned st i = xs /\
       forall c k, In c (progs i) -> touches (lenN buf) c k ->
         nth_error (sys_buf st) (N.to_nat k) = nth_error b (N.to_nat k)).
Proof.
  intros OK Sm AP st. destruct (as_alone ev buf progs OK Sm sched i AP) as (b & xs & A & B & G).
  exists b, xs. split; [exact A|]. split; [exact B|]. intros F. destruct (G F) as [G1 G2]. split; [exact G1|].
  intros c k Ic To. apply G2. exists c. auto.
Qed.
Lemma rest' ev buf progs sched : progs_ok progs -> lenN buf < size_mod ->
  let st := sys_run ev sched (sys_start buf progs) in
  sys_ub st = false /\ lenN (sys_buf st) = lenN buf /\
  forall k, (forall i c, In c (progs i) -> writes c = true -> ~ touches (lenN buf) c k) ->
    nth_error (sys_buf st) (N.to_nat k) = nth_error buf (N.to_nat k).
Proof. intros OK Sm. now apply rest. Qed.
Lemma finishes' ev buf progs i : progs_ok progs -> lenN buf < size_mod ->
  exists n, forall sched, (n <= turns i sched)%nat -> finished (sys_run ev sched (sys_start buf progs)) i.
Proof. intros OK Sm. now apply finishes. Qed.
Lemma race_iff' ev buf progs : progs_ok progs -> lenN buf < size_mod ->
  (forall sched, ~ race (sys_run ev sched (sys_start buf progs))) <-> apart (lenN buf) progs.
Proof. intros OK Sm. now apply race_iff. Qed.
