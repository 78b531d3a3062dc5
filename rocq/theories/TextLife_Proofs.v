(** Proofs about texts that change under their views. *)
From Coq Require Import List Lia NArith. Import ListNotations.
From Verif Require Import Base BaseFacts String_Model String_Spec String_Proofs Frag_Model TextLife_Model TextLife_Spec.
Local Open Scope N_scope.

(** * Memory *)
Lemma nth_set_same m n a : (n < length m)%nat -> nth_error (set_array m n a) n = Some a.
Proof. revert n. induction m as [|x m IH]; intros [|n] L; cbn in *; try lia; auto. apply IH. lia. Qed.
Lemma nth_set_other m n k a : n <> k -> nth_error (set_array m n a) k = nth_error m k.
Proof. revert n k. induction m as [|x m IH]; intros [|n] [|k] L; cbn in *; try congruence; auto. Qed.
Lemma length_set m n a : length (set_array m n a) = length m.
Proof. revert n. induction m as [|x m IH]; intros [|n]; cbn; auto. Qed.
Lemma array_lt m n cs : array_at m n = Some cs -> (N.to_nat n < length m)%nat.
Proof. unfold array_at. destruct (nth_error m (N.to_nat n)) eqn:E; [|discriminate]. intros _. apply nth_error_Some. congruence. Qed.
Lemma array_set m n a k cs : array_at m n = Some cs -> array_at (set_array m (N.to_nat n) a) k = if k =? n then a else array_at m k.
Proof.
  intros A. pose proof (array_lt _ _ _ A) as L. unfold array_at at 1. destruct (N.eqb_spec k n) as [->|NE].
  - now rewrite nth_set_same.
  - rewrite nth_set_other by lia. reflexivity.
Qed.
Lemma array_app m cs k : array_at (m ++ [Some cs]) k = if k =? lenN m then Some cs else array_at m k.
Proof.
  unfold array_at, lenN. destruct (N.eqb_spec k (N.of_nat (length m))) as [->|NE].
  - rewrite Nat2N.id, nth_error_app2 by lia. now rewrite Nat.sub_diag.
  - destruct (Nat.lt_ge_cases (N.to_nat k) (length m)).
    + now rewrite nth_error_app1.
    + rewrite nth_error_app2 by lia. rewrite (proj2 (nth_error_None m _)) by lia.
      destruct (N.to_nat k - length m)%nat as [|j] eqn:E; [lia|]. now destruct j.
Qed.

(** * C strings and pieces *)
Lemma c_text_before cs : c_text cs = match before_nul cs with Some t => Ok t | None => UB end.
Proof.
  induction cs as [|c cs IH]; [reflexivity|]. cbn. destruct (c =? 0); [reflexivity|]. rewrite IH.
  now destruct (before_nul cs).
Qed.
Lemma before_nul_spec cs t : before_nul cs = Some t <-> exists r, cs = t ++ 0 :: r /\ ~ In 0 t.
Proof.
  revert t. induction cs as [|c cs IH]; intros t; cbn.
  - split; [discriminate|]. intros (r & E & _). now destruct t.
  - destruct (N.eqb_spec c 0) as [->|NZ].
    + split.
      * injection 1 as <-. exists cs. now split; [|intros []].
      * intros (r & E & NI). destruct t as [|a t]; [reflexivity|]. injection E as <- _. destruct NI. now left.
    + destruct (before_nul cs) as [u|]; cbn.
      * split.
        -- injection 1 as <-. destruct (proj1 (IH u) eq_refl) as (r & -> & NI). exists r. split; [reflexivity|].
           intros [H|H]; [congruence|auto].
        -- intros (r & E & NI). destruct t as [|a t]; [cbn in E; congruence|]. injection E as <- E.
           f_equal. f_equal. assert (Some u = Some t); [|congruence]. apply IH. exists r. split; [exact E|]. intros H. apply NI. now right.
      * split; [discriminate|]. intros (r & E & NI). destruct t as [|a t]; [cbn in E; congruence|]. injection E as <- E.
        assert (None = Some t); [|discriminate]. apply IH. exists r. split; [exact E|]. intros H. apply NI. now right.
Qed.

Lemma pieces_find d cs : forall start len, let (tok, rest) := find_char d cs in
  cs = tok ++ rest /\
  pieces d start len cs = match rest with
                          | [] => [(start, len + lenN tok)]
                          | _ :: r => (start, len + lenN tok) :: pieces d (start + len + lenN tok + 1) 0 r
                          end /\ (forall c r, rest = c :: r -> c = d).
Proof.
  induction cs as [|c cs IH]; intros start len; cbn.
  - change (lenN (@nil N)) with 0. rewrite N.add_0_r. split; [reflexivity|]. split; [reflexivity|discriminate].
  - destruct (N.eqb_spec c d) as [->|NE].
    + change (lenN (@nil N)) with 0. split; [reflexivity|]. split; [|congruence]. f_equal; [f_equal; lia|]. f_equal. lia.
    + specialize (IH start (len + 1)). destruct (find_char d cs) as [a b]. destruct IH as (-> & -> & F).
      split; [reflexivity|]. split; [|exact F]. rewrite lenN_cons. destruct b as [|x b].
      * do 2 f_equal. lia.
      * f_equal; [f_equal; lia|]. f_equal. lia.
Qed.
Lemma skip_pieces d cs : forall start, exists k, cs = repeat d k ++ skip_char d cs /\
  filter (wanted drop_empty) (pieces d start 0 cs) = filter (wanted drop_empty) (pieces d (start + N.of_nat k) 0 (skip_char d cs)).
Proof.
  induction cs as [|c cs IH]; intros start.
  - exists 0%nat. cbn. now split.
  - cbn [skip_char]. destruct (N.eqb_spec c d) as [->|NE]; cbn [negb].
    + destruct (IH (start + 1)) as (k & E & F). exists (S k). split; [cbn; now rewrite <- E|].
      cbn [pieces]. rewrite N.eqb_refl. cbn [filter wanted snd]. change (0 <? 0) with false. cbn iota.
      rewrite N.add_0_r, F. do 2 f_equal. lia.
    + exists 0%nat. cbn [repeat app]. split; [reflexivity|]. now rewrite N.add_0_r.
Qed.

Definition place (v : view) : N * N := (v_pos v, lenN (v_chars v)).

Lemma split_loop_places fuel : forall s pos d b out, (length s < fuel)%nat ->
  exists ts, split_loop fuel (fun _ => true) (View pos s) d b out = Ok (out ++ ts) /\
    map place ts = filter (wanted b) (pieces d pos 0 s) /\
    Forall (fun v => pos <= v_pos v /\ v_chars v = takeN (lenN (v_chars v)) (dropN (v_pos v - pos) s)) ts.
Proof.
  induction fuel as [|fuel IH]; intros s pos d b out L; [lia|].
  cbn [split_loop]. unfold first_token. cbn [v_chars v_pos].
  pose proof (pieces_find d s pos 0) as P. destruct (find_char d s) as [tok rest]. destruct P as (-> & PE & FD).
  rewrite N.add_0_l, N.add_0_r in PE. cbn [v_chars].
  set (w := match b with keep_empty => true | drop_empty => match tok with [] => false | _ => true end end).
  assert (W : wanted b (pos, lenN tok) = w).
  { subst w. unfold wanted. destruct b; [reflexivity|]. cbn [snd]. destruct tok as [|a tok]; [reflexivity|].
    rewrite lenN_cons. apply N.ltb_lt. lia. }
  assert (T : exists h, (if w then Ok (out ++ [View pos tok]) else Ok out) = Ok (out ++ h) /\
              map place h = (if w then [(pos, lenN tok)] else []) /\
              Forall (fun v => pos <= v_pos v /\ v_chars v = takeN (lenN (v_chars v)) (dropN (v_pos v - pos) (tok ++ rest))) h).
  { destruct w.
    - exists [View pos tok]. repeat split; auto. constructor; [|constructor]. cbn. split; [lia|].
      rewrite N.sub_diag. change (dropN 0 (tok ++ rest)) with (tok ++ rest). now rewrite takeN_app_exact.
    - exists []. rewrite app_nil_r. repeat split; auto. }
  destruct T as (h & E1 & E2 & E3). rewrite E1. cbn [obind].
  destruct rest as [|c r].
  - exists h. split; [reflexivity|]. split; [|exact E3]. rewrite E2, PE. cbn [filter]. rewrite W. now destruct w.
  - pose proof (FD c r eq_refl) as ->. clear FD.
    assert (NX : exists k, tok ++ d :: r = (tok ++ repeat d k) ++ advance_past_delimiter (d :: r) d b /\ (1 <= k)%nat /\
       filter (wanted b) (pieces d (pos + lenN tok + 1) 0 r) =
       filter (wanted b) (pieces d (pos + lenN tok + N.of_nat k) 0 (advance_past_delimiter (d :: r) d b))).
    { unfold advance_past_delimiter. destruct b.
      - exists 1%nat. rewrite <- app_assoc. now repeat split.
      - cbn [skip_char]. rewrite N.eqb_refl. cbn [negb].
        destruct (skip_pieces d r (pos + lenN tok + 1)) as (k & EK & FK). exists (S k). rewrite <- app_assoc. cbn [repeat app].
        split; [now rewrite <- EK|]. split; [lia|]. rewrite FK. do 2 f_equal. lia. }
    destruct NX as (k & EK & K1 & FK). set (nx := advance_past_delimiter (d :: r) d b) in *.
    assert (LK : lenN (tok ++ d :: r) = lenN tok + N.of_nat k + lenN nx).
    { rewrite EK, !lenN_app, lenN_repeat. lia. }
    assert (POS : pos + (lenN (tok ++ d :: r) - lenN nx) = pos + lenN tok + N.of_nat k) by lia.
    rewrite POS.
    destruct (IH nx (pos + lenN tok + N.of_nat k) d b (out ++ h)) as (ts & E4 & E5 & E6).
    { unfold lenN in LK. rewrite app_length in L, LK. cbn [length] in L, LK. lia. }
    exists (h ++ ts). rewrite E4, app_assoc. split; [reflexivity|]. split.
    + rewrite map_app, E2, E5, PE. cbn [filter]. rewrite W, FK. now destruct w.
    + apply Forall_app. split; [exact E3|]. eapply Forall_impl; [|exact E6]. intros v (V1 & V2). cbn beta. split; [lia|].
      rewrite V2 at 1. f_equal. rewrite EK.
      replace (v_pos v - pos) with ((v_pos v - (pos + lenN tok + N.of_nat k)) + lenN (tok ++ repeat d k))
        by (rewrite lenN_app, lenN_repeat; lia).
      rewrite <- dropN_dropN. now rewrite dropN_app_exact.
Qed.
Lemma split_to_places s d b : exists ts, split_to (fun _ => true) s d b = Ok ts /\ map place ts = places d b s /\
  Forall (fun v => v_chars v = takeN (lenN (v_chars v)) (dropN (v_pos v) s)) ts.
Proof.
  destruct (split_loop_places (S (length s)) s 0 d b []) as (ts & E & P & F); [lia|].
  exists ts. unfold split_to. rewrite E. cbn. split; [reflexivity|]. split; [exact P|].
  eapply Forall_impl; [|exact F]. intros v (_ & V). now rewrite N.sub_0_r in V.
Qed.

(** * The two worlds agree *)
Definition same (s : tstate) (w : world) : Prop :=
  (forall n, array_at (t_mem s) n = text_of w n) /\ lenN (t_mem s) = born w /\ (forall v, t_var s v = holds w v).

Lemma c_from s w n k : same s w ->
  (let! cs := memory_from (t_mem s) n k in c_text cs) = match c_string w n k with Some t => Ok t | None => UB end.
Proof.
  intros (A & _). unfold memory_from, c_string. rewrite A. destruct (text_of w n) as [cs|]; [|reflexivity].
  destruct (k <=? lenN cs); [|reflexivity]. apply c_text_before.
Qed.
Lemma view_shown s w v : same s w -> view_chars (t_mem s) v = match shown w v with Some t => Ok t | None => UB end.
Proof.
  intros (A & _). destruct v as [|n from len]; [reflexivity|]. cbn. destruct (N.eqb_spec len 0) as [|NZ]; [reflexivity|].
  unfold memory_from. rewrite A. destruct (text_of w n) as [cs|]; [|reflexivity].
  destruct (N.leb_spec from (lenN cs)); cbn.
  - rewrite lenN_dropN. destruct (N.leb_spec len (lenN cs - from)), (N.leb_spec (from + len) (lenN cs)); try lia; reflexivity.
  - destruct (N.leb_spec (from + len) (lenN cs)); [lia|reflexivity].
Qed.
Lemma print_0 fs : print 0 0 fs = concat (map chars fs).
Proof.
  induction fs as [|f fs IH]; [reflexivity|]. cbn [print map concat]. rewrite IH. reflexivity.
Qed.
Lemma frag_print_shown s w vs : same s w -> frag_print (t_mem s) vs = match all_of (shown w) vs with Some t => Ok t | None => UB end.
Proof.
  intros HS. unfold frag_print.
  assert (H : match all_of (shown w) vs with
              | Some t => exists fs, frag_now (t_mem s) vs = Ok fs /\ concat (map chars fs) = t
              | None => frag_now (t_mem s) vs = UB end).
  { induction vs as [|v vs IH]; cbn.
    - exists []. now split.
    - rewrite (view_shown s w v HS). destruct (shown w v) as [t|]; cbn; [|reflexivity].
      destruct (all_of (shown w) vs) as [u|].
      + destruct IH as (fs & -> & <-). exists (Some t :: fs). now split.
      + now rewrite IH. }
  destruct (all_of (shown w) vs) as [t|].
  - destruct H as (fs & -> & <-). cbn. now rewrite print_0.
  - now rewrite H.
Qed.
Lemma frag_to_str_shown s w vs : same s w -> frag_to_str (t_mem s) vs = match all_of (c_shown w) vs with Some t => Ok t | None => UB end.
Proof.
  intros HS. unfold frag_to_str.
  assert (H : forall out, frag_append (t_mem s) out vs = match all_of (c_shown w) vs with Some t => Ok (out ++ t) | None => UB end).
  { induction vs as [|v vs IH]; intros out; cbn.
    - now rewrite app_nil_r.
    - destruct v as [|n from len]; [reflexivity|]. cbn [c_shown]. pose proof (c_from s w n from HS) as C.
      destruct (memory_from (t_mem s) n from) as [cs| | | |]; cbn in C |- *;
        destruct (c_string w n from) as [t|]; try discriminate; try reflexivity; rewrite C; cbn; [|reflexivity].
      rewrite IH. destruct (all_of (c_shown w) vs) as [u|]; [|reflexivity]. now rewrite app_assoc. }
  rewrite H. now destruct (all_of (c_shown w) vs).
Qed.
Lemma frag_length_sum vs : frag_length vs = fold_right (fun x n => len_of x + n) 0 vs.
Proof.
  unfold frag_length. assert (H : forall a, fold_left (fun n v => n + view_length v) vs a = a + fold_right (fun x n => len_of x + n) 0 vs).
  { induction vs as [|v vs IH]; intros a; cbn; [lia|]. rewrite IH. replace (view_length v) with (len_of v) by now destruct v. lia. }
  rewrite H. lia.
Qed.
Lemma split_ptr_from s w n k d b : same s w ->
  match c_string w n k with
  | Some t => exists ts, (let! cs := memory_from (t_mem s) n k in split_to_ptr (fun _ => true) (Some cs) d b) = Ok ts /\
                map place ts = places d b t /\ Forall (fun v => v_chars v = takeN (lenN (v_chars v)) (dropN (v_pos v) t)) ts
  | None => (let! cs := memory_from (t_mem s) n k in split_to_ptr (fun _ => true) (Some cs) d b) = UB
  end.
Proof.
  intros HS. pose proof (c_from s w n k HS) as C. unfold split_to_ptr.
  destruct (memory_from (t_mem s) n k) as [cs| | | |]; cbn in C |- *; destruct (c_string w n k) as [t|]; try discriminate; try reflexivity; rewrite C; cbn.
  - destruct (split_to_places t d b) as (ts & E & P & F). exists ts. now rewrite E.
  - reflexivity.
Qed.
Lemma tokens_shown s w n k d b : same s w ->
  tokens_from (t_mem s) n k d b =
  match c_string w n k with Some t => Ok (map (fun p => Sv n (k + fst p) (snd p)) (places d b t)) | None => UB end.
Proof.
  intros HS. pose proof (split_ptr_from s w n k d b HS) as H. unfold tokens_from.
  destruct (memory_from (t_mem s) n k) as [cs| | | |]; cbn [obind] in H |- *;
    destruct (c_string w n k) as [t|]; try (destruct H as (ts & H & _); discriminate); try discriminate; try reflexivity.
  - destruct H as (ts & -> & <- & _). cbn. rewrite map_map. reflexivity.
  - now rewrite H.
Qed.
Lemma strings_shown s w n k d b : same s w ->
  strings_from (t_mem s) n k d b =
  match c_string w n k with Some t => Ok (map (fun p => takeN (snd p) (dropN (fst p) t)) (places d b t)) | None => UB end.
Proof.
  intros HS. pose proof (split_ptr_from s w n k d b HS) as H. unfold strings_from.
  destruct (memory_from (t_mem s) n k) as [cs| | | |]; cbn [obind] in H |- *;
    destruct (c_string w n k) as [t|]; try (destruct H as (ts & H & _); discriminate); try discriminate; try reflexivity.
  - destruct H as (ts & -> & <- & F). cbn. rewrite map_map. f_equal. apply map_ext_in. intros v I.
    rewrite Forall_forall in F. cbn. now apply F.
  - now rewrite H.
Qed.

Lemma same_assign s w v x : same s w -> same (assign s v x) (hold w v x).
Proof. intros (A & B & C). split; [exact A|]. split; [exact B|]. intros u. cbn. unfold upd. now rewrite C. Qed.

Lemma tstep_effect s w o : same s w ->
  match effect w o with
  | Some (x, w1) => exists s1, tstep s o = Ok (x, s1) /\ same s1 w1
  | None => tstep s o = UB
  end.
Proof.
  intros HS. pose proof HS as (A & B & C).
  destruct o; cbn [effect tstep].
  - eexists. split; [reflexivity|]. split; [|split].
    + intros n. cbn. rewrite array_app, B. unfold upd. now rewrite A.
    + cbn. rewrite lenN_app, B. reflexivity.
    + exact C.
  - rewrite A. destruct (text_of w n) as [cs|] eqn:E; [|reflexivity]. destruct (k <? lenN cs); [|reflexivity].
    eexists. split; [reflexivity|]. rewrite <- A in E. split; [|split].
    + intros m. cbn [t_mem text_of]. rewrite (array_set _ _ _ _ _ E). unfold upd. now rewrite A.
    + cbn. unfold lenN. rewrite length_set. exact B.
    + exact C.
  - rewrite A. destruct (text_of w n) as [cs|] eqn:E; [|reflexivity].
    eexists. split; [reflexivity|]. rewrite <- A in E. split; [|split].
    + intros m. cbn [t_mem text_of]. rewrite (array_set _ _ _ _ _ E). unfold upd. now rewrite A.
    + cbn. unfold lenN. rewrite length_set. exact B.
    + exact C.
  - unfold frag_from. pose proof (c_from s w n k HS) as H.
    destruct (memory_from (t_mem s) n k) as [cs| | | |]; cbn [obind] in H |- *; destruct (c_string w n k) as [t|]; try discriminate; try reflexivity; rewrite H; cbn [obind]; [|reflexivity].
    eexists. split; [reflexivity|]. now apply same_assign.
  - eexists. split; [reflexivity|]. now apply same_assign.
  - rewrite !C. destruct (holds w w0) as [[a| |]|]; try reflexivity. destruct (holds w x) as [[c| |]|]; try reflexivity.
    eexists. split; [reflexivity|]. now apply same_assign.
  - rewrite (tokens_shown s w n k d b HS). destruct (c_string w n k) as [t|]; cbn [obind]; [|reflexivity].
    eexists. split; [reflexivity|]. now apply same_assign.
  - rewrite (strings_shown s w n k d b HS). destruct (c_string w n k) as [t|]; cbn [obind]; [|reflexivity].
    eexists. split; [reflexivity|]. now apply same_assign.
  - rewrite C. destruct (holds w w0) as [[a| |]|]; try reflexivity. rewrite (frag_to_str_shown s w a HS).
    destruct (all_of (c_shown w) a); cbn [obind]; [|reflexivity]. eexists. split; [reflexivity|]. now apply same_assign.
  - rewrite C. destruct (holds w v) as [[a| |]|]; try reflexivity. rewrite frag_length_sum. eauto.
  - rewrite C. destruct (holds w v) as [[a| |]|]; try reflexivity. rewrite (frag_print_shown s w a HS).
    destruct (all_of (shown w) a); cbn [obind]; eauto.
  - rewrite C. destruct (holds w v) as [[a| |]|]; try reflexivity. rewrite (frag_to_str_shown s w a HS).
    destruct (all_of (c_shown w) a); cbn [obind]; eauto.
  - rewrite C. destruct (holds w v) as [[a|a|a]|]; try reflexivity; destruct (nth_error a (N.to_nat i)); eauto.
    rewrite (view_shown s w _ HS). destruct (shown w s0); cbn [obind]; eauto.
Qed.
Lemma trun_effects p : forall s w, same s w ->
  match effects w p with
  | Some (xs, w1) => exists s1, trun s p = Ok (xs, s1) /\ same s1 w1
  | None => trun s p = UB
  end.
Proof.
  induction p as [|o p IH]; intros s w HS; cbn [effects trun].
  - eauto.
  - pose proof (tstep_effect s w o HS) as H. destruct (effect w o) as [[x w1]|].
    + destruct H as (s1 & -> & HS1). cbn [obind]. specialize (IH s1 w1 HS1). destruct (effects w1 p) as [[xs w2]|].
      * destruct IH as (s2 & -> & HS2). cbn. eauto.
      * now rewrite IH.
    + now rewrite H.
Qed.
Lemma same_start : same tstart nothing_yet.
Proof. split; [|split]; [|reflexivity|reflexivity]. intros n. unfold array_at. cbn. now destruct (N.to_nat n). Qed.
Lemma text_refines p :
  match effects nothing_yet p with
  | Some (xs, _) => exists s, trun tstart p = Ok (xs, s)
  | None => trun tstart p = UB
  end.
Proof.
  pose proof (trun_effects p tstart nothing_yet same_start) as H. destruct (effects nothing_yet p) as [[xs w]|]; [|exact H].
  destruct H as (s & H & _). eauto.
Qed.

(** * What stays true of every state of a program *)
Lemma lives_array s n : lives s n <-> exists cs, array_at (t_mem s) n = Some cs.
Proof.
  unfold lives, array_at. destruct (nth_error (t_mem s) (N.to_nat n)) as [[cs|]|]; split; intros (x & E); try discriminate; eauto.
Qed.
Definition views_in (x : tvar) : list sview := match x with TFrag vs | TViews vs => vs | TStrings _ => [] end.
Definition view_ok (m : memory) (v : sview) : Prop :=
  match v with Null => True | Sv n from len => (N.to_nat n < length m)%nat /\ forall cs, array_at m n = Some cs -> from + len <= lenN cs end.
Definition inv (s : tstate) : Prop := forall v x, t_var s v = Some x -> Forall (view_ok (t_mem s)) (views_in x).

Lemma inv_assign s v x : inv s -> Forall (view_ok (t_mem s)) (views_in x) -> inv (assign s v x).
Proof.
  intros I F u y. cbn. destruct (u =? v).
  - injection 1 as <-. exact F.
  - apply I.
Qed.
Lemma memory_from_ok m n k cs : memory_from m n k = Ok cs -> exists a, array_at m n = Some a /\ k <= lenN a /\ cs = dropN k a.
Proof.
  unfold memory_from. destruct (array_at m n) as [a|]; [|discriminate]. destruct (N.leb_spec k (lenN a)); [|discriminate].
  injection 1 as <-. eauto.
Qed.
Lemma before_nul_len cs t : before_nul cs = Some t -> lenN t < lenN cs.
Proof. intros E. apply before_nul_spec in E. destruct E as (r & -> & _). rewrite lenN_app, lenN_cons. lia. Qed.
Lemma pieces_in d cs : forall start len p, In p (pieces d start len cs) -> start <= fst p /\ fst p + snd p <= start + len + lenN cs.
Proof.
  induction cs as [|c cs IH]; intros start len p; cbn [pieces].
  - intros [<-|[]]. cbn. lia.
  - rewrite lenN_cons. destruct (c =? d).
    + intros [<-|I]; [cbn [fst snd]; lia|]. apply IH in I. lia.
    + intros I. apply IH in I. lia.
Qed.
Lemma lenN_put (k c : N) (cs : list N) : k < lenN cs -> lenN (takeN k cs ++ c :: dropN (k + 1) cs) = lenN cs.
Proof. intros L. rewrite lenN_app, lenN_cons, lenN_takeN, lenN_dropN. lia. Qed.

Lemma self_world s : same s (World (array_at (t_mem s)) (lenN (t_mem s)) (t_var s)).
Proof. repeat split. Qed.

Lemma inv_step s o x s1 : inv s -> tstep s o = Ok (x, s1) -> inv s1.
Proof.
  intros I. pose proof (self_world s) as SW. destruct o; cbn [tstep].
  - injection 1 as <- <-. intros v y E. specialize (I v y E). cbn [t_mem]. eapply Forall_impl; [|exact I].
    intros [|n from len]; cbn; [auto|]. intros (L & F). split; [rewrite app_length; lia|]. intros a. rewrite array_app.
    unfold lenN. destruct (N.eqb_spec n (N.of_nat (length (t_mem s)))); [lia|]. apply F.
  - destruct (array_at (t_mem s) n) as [cs|] eqn:A; [|discriminate]. destruct (N.ltb_spec k (lenN cs)); [|discriminate].
    injection 1 as <- <-. intros v y E. specialize (I v y E). cbn [t_mem]. eapply Forall_impl; [|exact I].
    intros [|m from len]; cbn; [auto|]. intros (L & F). split; [now rewrite length_set|]. intros a.
    rewrite (array_set _ _ _ _ _ A). destruct (N.eqb_spec m n) as [->|]; [|apply F].
    injection 1 as <-. rewrite lenN_put by assumption. now apply F.
  - destruct (array_at (t_mem s) n) as [cs|] eqn:A; [|discriminate].
    injection 1 as <- <-. intros v y E. specialize (I v y E). cbn [t_mem]. eapply Forall_impl; [|exact I].
    intros [|m from len]; cbn; [auto|]. intros (L & F). split; [now rewrite length_set|]. intros a.
    rewrite (array_set _ _ _ _ _ A). destruct (N.eqb_spec m n) as [->|]; [discriminate|apply F].
  - unfold frag_from. destruct (memory_from (t_mem s) n k) as [cs| | | |] eqn:M; try discriminate. cbn.
    rewrite c_text_before. destruct (before_nul cs) as [t|] eqn:BN; [|discriminate]. cbn. injection 1 as <- <-.
    apply inv_assign; [exact I|]. apply memory_from_ok in M. destruct M as (a & A & K & ->).
    constructor; [|constructor]. cbn. split; [eapply array_lt; eauto|]. intros a'. rewrite A. injection 1 as <-.
    apply before_nul_len in BN. rewrite lenN_dropN in BN. lia.
  - injection 1 as <- <-. apply inv_assign; [exact I|]. cbn. apply Forall_forall. intros u E. apply repeat_spec in E. subst u. exact Logic.I.
  - destruct (t_var s w) as [[a| |]|] eqn:W; try discriminate. destruct (t_var s x0) as [[c| |]|] eqn:X; try discriminate.
    injection 1 as <- <-. apply inv_assign; [exact I|]. cbn. apply Forall_app. split; [exact (I _ _ W)|exact (I _ _ X)].
  - rewrite (tokens_shown s _ n k d b SW). unfold c_string. cbn [text_of].
    destruct (array_at (t_mem s) n) as [a|] eqn:A; [|discriminate]. destruct (N.leb_spec k (lenN a)); [|discriminate].
    destruct (before_nul (dropN k a)) as [t|] eqn:BN; [|discriminate]. cbn [obind]. injection 1 as <- <-.
    apply inv_assign; [exact I|]. cbn. apply Forall_forall. intros u E. apply in_map_iff in E. destruct E as (p & <- & IP).
    unfold places in IP. apply filter_In in IP. destruct IP as (IP & _). apply pieces_in in IP.
    cbn. split; [eapply array_lt; eauto|]. intros a'. rewrite A. injection 1 as <-.
    apply before_nul_len in BN. rewrite lenN_dropN in BN. lia.
  - destruct (strings_from (t_mem s) n k d b); try discriminate. cbn. injection 1 as <- <-. apply inv_assign; [exact I|]. constructor.
  - destruct (t_var s w) as [[a| |]|] eqn:W; try discriminate. destruct (frag_to_str (t_mem s) a); try discriminate. cbn.
    injection 1 as <- <-. apply inv_assign; [exact I|]. constructor.
  - destruct (t_var s v) as [[a| |]|] eqn:W; try discriminate. now injection 1 as <- <-.
  - destruct (t_var s v) as [[a| |]|] eqn:W; try discriminate. destruct (frag_print (t_mem s) a); try discriminate. now injection 1 as <- <-.
  - destruct (t_var s v) as [[a| |]|] eqn:W; try discriminate. destruct (frag_to_str (t_mem s) a); try discriminate. now injection 1 as <- <-.
  - destruct (t_var s v) as [[a|a|a]|] eqn:W; try discriminate; destruct (nth_error a (N.to_nat i)); try discriminate.
    + destruct (view_chars (t_mem s) s0); try discriminate. now injection 1 as <- <-.
    + now injection 1 as <- <-.
Qed.
Lemma trun_ind (P : tstate -> Prop) p : forall s xs s1, P s ->
  (forall s o x s1, P s -> In o p -> tstep s o = Ok (x, s1) -> P s1) -> trun s p = Ok (xs, s1) -> P s1.
Proof.
  induction p as [|o p IH]; intros s xs s1 H0 HS; cbn.
  - injection 1 as <- <-. exact H0.
  - destruct (tstep s o) as [[x s2]| | | |] eqn:E; try discriminate. cbn.
    destruct (trun s2 p) as [[ys s3]| | | |] eqn:E2; try discriminate. cbn. injection 1 as <- <-.
    refine (IH s2 ys s3 _ _ E2).
    + eapply HS; eauto. now left.
    + intros ? ? ? ? ? I. apply HS; auto. now right.
Qed.
Lemma inv_reached p xs s : trun tstart p = Ok (xs, s) -> inv s.
Proof.
  intros R. eapply (trun_ind inv p tstart); [|intros; eapply inv_step; eauto|exact R]. intros v x E. discriminate.
Qed.

(** * When a view can be read *)
Lemma shown_len s v t : view_chars (t_mem s) v = Ok t -> lenN t = len_of v.
Proof.
  destruct v as [|n from len]; cbn; [now injection 1 as <-|]. destruct (N.eqb_spec len 0) as [->|]; [now injection 1 as <-|].
  destruct (memory_from (t_mem s) n from) as [cs| | | |]; try discriminate. cbn. destruct (N.leb_spec len (lenN cs)); [|discriminate].
  injection 1 as <-. rewrite lenN_takeN. lia.
Qed.
Lemma view_readable s v : view_ok (t_mem s) v ->
  (text_lives s v -> exists t, view_chars (t_mem s) v = Ok t /\ lenN t = len_of v) /\ (~ text_lives s v -> view_chars (t_mem s) v = UB).
Proof.
  intros OK. split.
  - intros T. cut (exists t, view_chars (t_mem s) v = Ok t).
    { intros (t & E). exists t. split; [exact E|]. now apply (shown_len s). }
    destruct v as [|n from len]; cbn in *; [eauto|]. destruct (N.eqb_spec len 0) as [->|NZ]; [eauto|].
    destruct (proj1 (lives_array s n) (T ltac:(lia))) as (cs & A). destruct OK as (_ & F). specialize (F cs A).
    unfold memory_from. rewrite A. destruct (N.leb_spec from (lenN cs)); [|lia]. cbn. rewrite lenN_dropN.
    destruct (N.leb_spec len (lenN cs - from)); [eauto|lia].
  - intros T. destruct v as [|n from len]; cbn in *; [tauto|]. destruct (N.eqb_spec len 0) as [->|NZ]; [destruct T; lia|].
    unfold memory_from. destruct (array_at (t_mem s) n) as [cs|] eqn:A; [|reflexivity]. destruct T. intros _. apply lives_array. eauto.
Qed.
Lemma text_lives_dec s v : text_lives s v \/ ~ text_lives s v.
Proof.
  destruct v as [|n from len]; [now left|]. cbn. destruct (N.eq_dec len 0) as [->|]; [left; lia|].
  destruct (array_at (t_mem s) n) as [cs|] eqn:A.
  - left. intros _. apply lives_array. eauto.
  - right. intros H. destruct (proj1 (lives_array s n) (H ltac:(lia))). congruence.
Qed.
Lemma print_readable s vs : Forall (view_ok (t_mem s)) vs ->
  (Forall (text_lives s) vs -> exists t, frag_print (t_mem s) vs = Ok t /\ lenN t = frag_length vs) /\
  (~ Forall (text_lives s) vs -> frag_print (t_mem s) vs = UB).
Proof.
  intros OK. rewrite frag_length_sum. unfold frag_print.
  cut ((Forall (text_lives s) vs -> exists fs, frag_now (t_mem s) vs = Ok fs /\ lenN (concat (map chars fs)) = fold_right (fun x n => len_of x + n) 0 vs) /\
       (~ Forall (text_lives s) vs -> frag_now (t_mem s) vs = UB)).
  { intros (P & Q). split.
    - intros F. destruct (P F) as (fs & -> & L). cbn. rewrite print_0. eauto.
    - intros F. now rewrite (Q F). }
  induction vs as [|v vs IH]; cbn.
  - split; [|intros F; destruct F; constructor]. intros _. exists []. now split.
  - destruct (view_readable s v (Forall_inv OK)) as (R1 & R2). destruct (IH (Forall_inv_tail OK)) as (I1 & I2). split.
    + intros F. destruct (R1 (Forall_inv F)) as (t & -> & L). destruct (I1 (Forall_inv_tail F)) as (fs & -> & L2). cbn.
      eexists. split; [reflexivity|]. cbn. rewrite lenN_app. lia.
    + intros F. destruct (text_lives_dec s v) as [T|T].
      * destruct (R1 T) as (t & -> & _). cbn. rewrite I2; [reflexivity|]. intros F2. apply F. now constructor.
      * now rewrite (R2 T).
Qed.
Lemma text_usable p xs s v : trun tstart p = Ok (xs, s) ->
  (forall vs, t_var s v = Some (TFrag vs) ->
     (Forall (text_lives s) vs -> exists t, tstep s (TPrint v) = Ok (TText t, s) /\ tstep s (TLength v) = Ok (TNum (lenN t), s)) /\
     (~ Forall (text_lives s) vs -> tstep s (TPrint v) = UB)) /\
  (forall vs i x, t_var s v = Some (TViews vs) -> nth_error vs (N.to_nat i) = Some x ->
     (text_lives s x -> exists t, tstep s (TItem v i) = Ok (TText t, s)) /\
     (~ text_lives s x -> tstep s (TItem v i) = UB)).
Proof.
  intros R. pose proof (inv_reached _ _ _ R) as I. split.
  - intros vs E. destruct (print_readable s vs (I _ _ E)) as (P & Q). cbn [tstep]. rewrite E. split; intros F.
    + destruct (P F) as (t & -> & L). cbn. exists t. split; [reflexivity|]. now rewrite L.
    + now rewrite (Q F).
  - intros vs i x E N. pose proof (I _ _ E) as F. cbn in F. rewrite Forall_forall in F.
    destruct (view_readable s x (F x (nth_error_In _ _ N))) as (P & Q). cbn [tstep]. rewrite E, N. split; intros T.
    + destruct (P T) as (t & -> & _). cbn. eauto.
    + now rewrite (Q T).
Qed.

(** * What does not change *)
Lemma var_kept s o x s1 v : tstep s o = Ok (x, s1) -> ~ assigns v o -> t_var s1 v = t_var s v.
Proof.
  destruct o; cbn [tstep assigns]; intros E NA;
    repeat match goal with
           | H : (match ?y with _ => _ end) = Ok _ |- _ => destruct y; try discriminate
           | H : obind ?y _ = Ok _ |- _ => destruct y; try discriminate; cbn [obind] in H
           end; injection E as <- <-; try reflexivity; cbn; destruct (N.eqb_spec v v0); congruence.
Qed.
Lemma var_kept_run q s xs s1 v : trun s q = Ok (xs, s1) -> (forall o, In o q -> ~ assigns v o) -> t_var s1 v = t_var s v.
Proof.
  intros R NA. refine (trun_ind (fun s1 => t_var s1 v = t_var s v) q s xs s1 eq_refl _ R).
  intros s' o x s2 E I T. rewrite <- E. eapply var_kept; eauto.
Qed.
Lemma mem_kept s o x s1 : tstep s o = Ok (x, s1) -> ~ ends_a_text o -> ~ changes_text o ->
  forall n cs, array_at (t_mem s) n = Some cs -> array_at (t_mem s1) n = Some cs.
Proof.
  destruct o; cbn [tstep ends_a_text changes_text]; intros E NE NC n' cs' A; try tauto.
  1: { injection E as <- <-. cbn. rewrite array_app. pose proof (array_lt _ _ _ A). unfold lenN.
       destruct (N.eqb_spec n' (N.of_nat (length (t_mem s)))); [lia|exact A]. }
  all: repeat match goal with
           | H : (match ?y with _ => _ end) = Ok _ |- _ => destruct y; try discriminate
           | H : obind ?y _ = Ok _ |- _ => destruct y; try discriminate; cbn [obind] in H
           end; injection E as <- <-; exact A.
Qed.
Lemma text_same_length q s xs s1 v : trun s q = Ok (xs, s1) -> (forall o, In o q -> ~ assigns v o) ->
  forall n, tstep s (TLength v) = Ok (TNum n, s) -> tstep s1 (TLength v) = Ok (TNum n, s1).
Proof.
  intros R NA n. cbn [tstep]. rewrite (var_kept_run _ _ _ _ _ R NA). destruct (t_var s v) as [[vs| |]|]; try discriminate.
  injection 1 as <-. reflexivity.
Qed.
Lemma text_copies_stay q s xs s1 v ss : trun s q = Ok (xs, s1) -> (forall o, In o q -> ~ assigns v o) ->
  t_var s v = Some (TStrings ss) ->
  forall i t, nth_error ss (N.to_nat i) = Some t -> tstep s (TItem v i) = Ok (TText t, s) /\ tstep s1 (TItem v i) = Ok (TText t, s1).
Proof.
  intros R NA E i t N. cbn [tstep]. rewrite (var_kept_run _ _ _ _ _ R NA), E, N. now split.
Qed.
Definition within (m m1 : memory) : Prop := forall n cs, array_at m n = Some cs -> array_at m1 n = Some cs.
Lemma from_within m m1 n k cs : within m m1 -> memory_from m n k = Ok cs -> memory_from m1 n k = Ok cs.
Proof.
  intros W. unfold memory_from. destruct (array_at m n) as [a|] eqn:A; [|discriminate]. now rewrite (W _ _ A).
Qed.
Lemma view_within m m1 v t : within m m1 -> view_chars m v = Ok t -> view_chars m1 v = Ok t.
Proof.
  intros W. destruct v as [|n from len]; [auto|]. cbn. destruct (len =? 0); [auto|].
  destruct (memory_from m n from) as [cs| | | |] eqn:M; try discriminate. now rewrite (from_within _ _ _ _ _ W M).
Qed.
Lemma print_within m m1 vs t : within m m1 -> frag_print m vs = Ok t -> frag_print m1 vs = Ok t.
Proof.
  intros W. unfold frag_print. destruct (frag_now m vs) as [fs| | | |] eqn:F; try discriminate. cbn.
  assert (F1 : frag_now m1 vs = Ok fs); [|now rewrite F1].
  revert fs F. induction vs as [|v vs IH]; cbn; intros fs; [auto|]. destruct (view_chars m v) eqn:V; try discriminate.
  rewrite (view_within _ _ _ _ W V). cbn. destruct (frag_now m vs) eqn:F; try discriminate. cbn. injection 1 as <-.
  now rewrite (IH _ eq_refl).
Qed.
Lemma to_str_within m m1 vs t : within m m1 -> frag_to_str m vs = Ok t -> frag_to_str m1 vs = Ok t.
Proof.
  intros W. unfold frag_to_str. generalize (@nil N). induction vs as [|v vs IH]; cbn; intros out; [auto|].
  destruct v as [|n from len]; [auto|]. destruct (memory_from m n from) as [cs| | | |] eqn:M; try discriminate.
  rewrite (from_within _ _ _ _ _ W M). cbn. destruct (c_text cs); try discriminate. cbn. apply IH.
Qed.
Lemma text_unchanged q s xs s1 v : trun s q = Ok (xs, s1) ->
  (forall o, In o q -> ~ assigns v o /\ ~ ends_a_text o /\ ~ changes_text o) ->
  forall o t, o = TPrint v \/ o = TToStr v \/ (exists i, o = TItem v i) -> tstep s o = Ok (TText t, s) -> tstep s1 o = Ok (TText t, s1).
Proof.
  intros R NA o t O.
  assert (V : t_var s1 v = t_var s v) by (eapply var_kept_run; [exact R|]; intros; now apply NA).
  assert (W : within (t_mem s) (t_mem s1)).
  { refine (trun_ind (fun s1 => within (t_mem s) (t_mem s1)) q s xs s1 _ _ R); [now intros n cs|].
    intros s' o' x s2 W I T n cs A. destruct (NA o' I) as (_ & N1 & N2). eapply mem_kept; eauto. }
  destruct O as [->|[->|(i & ->)]]; cbn [tstep]; rewrite V; destruct (t_var s v) as [[vs|vs|ss]|]; try discriminate.
  - destruct (frag_print (t_mem s) vs) eqn:E; try discriminate. cbn. injection 1 as ->. now rewrite (print_within _ _ _ _ W E).
  - destruct (frag_to_str (t_mem s) vs) eqn:E; try discriminate. cbn. injection 1 as ->. now rewrite (to_str_within _ _ _ _ W E).
  - destruct (nth_error vs (N.to_nat i)) as [x|]; [|discriminate]. destruct (view_chars (t_mem s) x) eqn:E; try discriminate. cbn.
    injection 1 as ->. now rewrite (view_within _ _ _ _ W E).
  - destruct (nth_error ss (N.to_nat i)) as [x|]; [|discriminate]. now injection 1 as ->.
Qed.

(** * to_str shows what operator<< shows, as long as the NULs stay where they are *)
Definition ends_there (cs : list N) (from len : N) : Prop :=
  (forall i, i < len -> exists x, nth_error cs (N.to_nat (from + i)) = Some x /\ x <> 0) /\ nth_error cs (N.to_nat (from + len)) = Some 0.
Definition frag_ok (m : memory) (v : sview) : Prop :=
  match v with Null => True | Sv n from len => forall cs, array_at m n = Some cs -> ends_there cs from len end.
Definition cinv (s : tstate) : Prop := forall v vs, t_var s v = Some (TFrag vs) -> Forall (frag_ok (t_mem s)) vs.

Lemma nth_error_skipn {A} n (l : list A) k : nth_error (skipn n l) k = nth_error l (n + k).
Proof. revert l. induction n as [|n IH]; intros [|x l]; cbn; auto. now destruct k. Qed.
Lemma nth_error_firstn_lt {A} n (l : list A) k : (k < n)%nat -> nth_error (firstn n l) k = nth_error l k.
Proof. revert l k. induction n as [|n IH]; intros [|x l] [|k] L; cbn; auto; try lia. apply IH. lia. Qed.
Lemma before_nul_nat (l : list N) : forall len : nat, (forall i, (i < len)%nat -> exists x, nth_error l i = Some x /\ x <> 0) ->
  nth_error l len = Some 0 -> before_nul l = Some (firstn len l).
Proof.
  induction l as [|c l IH]; intros [|len] F Z; try discriminate.
  - cbn in Z. injection Z as ->. reflexivity.
  - destruct (F 0%nat ltac:(lia)) as (x & E & NZ). cbn in E. injection E as ->. cbn.
    destruct (N.eqb_spec x 0); [congruence|]. rewrite (IH len); [reflexivity| |exact Z].
    intros i L. apply (F (S i)). lia.
Qed.
Lemma before_nul_there cs from len : ends_there cs from len -> before_nul (dropN from cs) = Some (takeN len (dropN from cs)) /\ from + len < lenN cs.
Proof.
  intros (F & Z). split.
  - unfold takeN. apply before_nul_nat.
    + intros i L. destruct (F (N.of_nat i) ltac:(lia)) as (x & E & NZ). exists x. split; [|exact NZ].
      unfold dropN. rewrite nth_error_skipn. rewrite <- E. f_equal. lia.
    + unfold dropN. rewrite nth_error_skipn. rewrite <- Z. f_equal. lia.
  - assert (L : (N.to_nat (from + len) < length cs)%nat) by (apply nth_error_Some; congruence). unfold lenN. lia.
Qed.
Lemma nth_put (k c : N) (cs : list N) j : k < lenN cs ->
  nth_error (takeN k cs ++ c :: dropN (k + 1) cs) (N.to_nat j) = if j =? k then Some c else nth_error cs (N.to_nat j).
Proof.
  intros L. unfold lenN in L. unfold takeN, dropN.
  assert (LT : length (firstn (N.to_nat k) cs) = N.to_nat k) by (rewrite firstn_length; lia).
  destruct (N.eqb_spec j k) as [->|NE].
  - rewrite nth_error_app2 by lia. rewrite LT, Nat.sub_diag. reflexivity.
  - destruct (Nat.lt_ge_cases (N.to_nat j) (N.to_nat k)).
    + rewrite nth_error_app1 by lia. apply nth_error_firstn_lt. lia.
    + rewrite nth_error_app2 by lia. rewrite LT. destruct (N.to_nat j - N.to_nat k)%nat as [|i] eqn:E; [lia|].
      cbn [nth_error]. rewrite nth_error_skipn. f_equal. lia.
Qed.
Lemma cinv_assign_frag s v vs : cinv s -> Forall (frag_ok (t_mem s)) vs -> cinv (assign s v (TFrag vs)).
Proof.
  intros I F u y. cbn. destruct (u =? v).
  - injection 1 as <-. exact F.
  - apply I.
Qed.
Lemma cinv_assign s v x : cinv s -> (forall vs, x <> TFrag vs) -> cinv (assign s v x).
Proof.
  intros I F u y. cbn. destruct (u =? v).
  - injection 1 as E. destruct (F _ E).
  - apply I.
Qed.
Lemma cinv_step s o x s1 : inv s -> cinv s -> keeps_nuls s o -> tstep s o = Ok (x, s1) -> cinv s1.
Proof.
  intros I0 I KN. destruct o; cbn [tstep].
  - injection 1 as <- <-. intros v y E. specialize (I v y E). pose proof (I0 v _ E) as J. cbn [t_mem views_in] in *. rewrite Forall_forall in *.
    intros z Z. specialize (I z Z). specialize (J z Z). destruct z as [|n from len]; [exact Logic.I|]. cbn in *. intros a. rewrite array_app.
    unfold lenN. destruct (N.eqb_spec n (N.of_nat (length (t_mem s)))); [lia|]. apply I.
  - destruct (array_at (t_mem s) n) as [cs|] eqn:A; [|discriminate]. destruct (N.ltb_spec k (lenN cs)) as [L|]; [|discriminate].
    injection 1 as <- <-. cbn in KN. destruct KN as (NZ & KN).
    assert (K0 : nth_error cs (N.to_nat k) <> Some 0).
    { apply KN. unfold array_at in A. destruct (nth_error (t_mem s) (N.to_nat n)); congruence. }
    intros v y E. specialize (I v y E). cbn [t_mem]. eapply Forall_impl; [|exact I].
    intros [|m from len]; cbn; [auto|]. intros F a.
    rewrite (array_set _ _ _ _ _ A). destruct (N.eqb_spec m n) as [->|]; [|apply F].
    injection 1 as <-. destruct (F cs A) as (F1 & F2). split.
    + intros i Li. rewrite nth_put by exact L. destruct (N.eqb_spec (from + i) k); [eauto|]. now apply F1.
    + rewrite nth_put by exact L. destruct (N.eqb_spec (from + len) k) as [Ek|]; [|exact F2]. rewrite Ek in F2. congruence.
  - destruct (array_at (t_mem s) n) as [cs|] eqn:A; [|discriminate].
    injection 1 as <- <-. intros v y E. specialize (I v y E). cbn [t_mem]. eapply Forall_impl; [|exact I].
    intros [|m from len]; cbn; [auto|]. intros F a.
    rewrite (array_set _ _ _ _ _ A). destruct (N.eqb_spec m n) as [->|]; [discriminate|apply F].
  - unfold frag_from. destruct (memory_from (t_mem s) n k) as [cs| | | |] eqn:M; try discriminate. cbn.
    rewrite c_text_before. destruct (before_nul cs) as [t|] eqn:BN; [|discriminate]. cbn. injection 1 as <- <-.
    apply cinv_assign_frag; [exact I|]. apply memory_from_ok in M. destruct M as (a & A & K & ->).
    constructor; [|constructor]. cbn. intros a'. rewrite A. injection 1 as <-.
    apply before_nul_spec in BN. destruct BN as (r & E & NI). unfold dropN in E. split.
    + intros i L. unfold lenN in L. destruct (nth_error t (N.to_nat i)) as [z|] eqn:Z.
      * exists z. split; [|intros ->; apply NI; eapply nth_error_In; exact Z].
        replace (N.to_nat (k + i)) with (N.to_nat k + N.to_nat i)%nat by lia. rewrite <- nth_error_skipn, E, nth_error_app1; [exact Z|lia].
      * apply nth_error_None in Z. lia.
    + replace (N.to_nat (k + lenN t)) with (N.to_nat k + length t)%nat by (unfold lenN; lia).
      rewrite <- nth_error_skipn, E, nth_error_app2 by lia. now rewrite Nat.sub_diag.
  - injection 1 as <- <-. apply cinv_assign_frag; [exact I|]. apply Forall_forall. intros u E. apply repeat_spec in E. subst u. exact Logic.I.
  - destruct (t_var s w) as [[a| |]|] eqn:W; try discriminate. destruct (t_var s x0) as [[c| |]|] eqn:X; try discriminate.
    injection 1 as <- <-. apply cinv_assign_frag; [exact I|]. apply Forall_app. split; [exact (I _ _ W)|exact (I _ _ X)].
  - destruct (tokens_from (t_mem s) n k d b); try discriminate. cbn. injection 1 as <- <-. apply cinv_assign; [exact I|discriminate].
  - destruct (strings_from (t_mem s) n k d b); try discriminate. cbn. injection 1 as <- <-. apply cinv_assign; [exact I|discriminate].
  - destruct (t_var s w) as [[a| |]|] eqn:W; try discriminate. destruct (frag_to_str (t_mem s) a); try discriminate. cbn.
    injection 1 as <- <-. apply cinv_assign; [exact I|discriminate].
  - destruct (t_var s v) as [[a| |]|] eqn:W; try discriminate. now injection 1 as <- <-.
  - destruct (t_var s v) as [[a| |]|] eqn:W; try discriminate. destruct (frag_print (t_mem s) a); try discriminate. now injection 1 as <- <-.
  - destruct (t_var s v) as [[a| |]|] eqn:W; try discriminate. destruct (frag_to_str (t_mem s) a); try discriminate. now injection 1 as <- <-.
  - destruct (t_var s v) as [[a|a|a]|] eqn:W; try discriminate; destruct (nth_error a (N.to_nat i)); try discriminate.
    + destruct (view_chars (t_mem s) s0); try discriminate. now injection 1 as <- <-.
    + now injection 1 as <- <-.
Qed.
Lemma cinv_run p : forall s xs s1, inv s -> cinv s -> all_keep_nuls s p -> trun s p = Ok (xs, s1) -> cinv s1.
Proof.
  induction p as [|o p IH]; intros s xs s1 I C K; cbn.
  - now injection 1 as <- <-.
  - destruct K as (K1 & K2). destruct (tstep s o) as [[x s2]| | | |] eqn:E; try discriminate. cbn.
    destruct (trun s2 p) as [[ys s3]| | | |] eqn:E2; try discriminate. cbn. injection 1 as <- <-.
    eapply IH; [eapply inv_step; eauto|eapply cinv_step; eauto|eapply K2; eauto|exact E2].
Qed.
Lemma to_str_print_shown w vs : Forall (fun v => v <> Null /\ forall n from len, v = Sv n from len -> exists cs, text_of w n = Some cs /\ ends_there cs from len) vs ->
  exists t, all_of (c_shown w) vs = Some t /\ all_of (shown w) vs = Some t /\ lenN t = fold_right (fun x n => len_of x + n) 0 vs.
Proof.
  induction vs as [|v vs IH]; intros F; cbn [all_of fold_right].
  - exists []. repeat split.
  - destruct (IH (Forall_inv_tail F)) as (t & -> & -> & L). destruct (Forall_inv F) as (NN & V). destruct v as [|n from len]; [congruence|].
    destruct (V n from len eq_refl) as (cs & A & E). destruct (before_nul_there _ _ _ E) as (B & LT).
    cbn [c_shown shown len_of]. unfold c_string. rewrite A. destruct (N.leb_spec from (lenN cs)); [|lia]. rewrite B.
    destruct (N.eqb_spec len 0) as [->|NZ].
    + exists t. repeat split. lia.
    + destruct (N.leb_spec (from + len) (lenN cs)); [|lia]. eexists. repeat split.
      rewrite lenN_app, lenN_takeN, lenN_dropN. lia.
Qed.
Lemma text_to_str p xs s v vs : trun tstart p = Ok (xs, s) -> all_keep_nuls tstart p -> t_var s v = Some (TFrag vs) ->
  ~ In Null vs -> (forall n from len, In (Sv n from len) vs -> lives s n) ->
  exists t, tstep s (TToStr v) = Ok (TText t, s) /\ tstep s (TPrint v) = Ok (TText t, s) /\ tstep s (TLength v) = Ok (TNum (lenN t), s).
Proof.
  intros R K E NN LV.
  assert (C : cinv s) by (eapply (cinv_run p tstart); eauto; intros ? ? ?; discriminate).
  pose proof (self_world s) as SW. set (w := World _ _ _) in SW.
  destruct (to_str_print_shown w vs) as (t & E1 & E2 & L).
  { rewrite Forall_forall. intros z Z. split; [congruence|]. intros n from len ->. destruct (proj1 (lives_array s n) (LV _ _ _ Z)) as (cs & A).
    exists cs. split; [exact A|]. pose proof (C _ _ E) as F. rewrite Forall_forall in F. exact (F _ Z _ A). }
  exists t. cbn [tstep]. rewrite E, (frag_to_str_shown s w vs SW), E1, (frag_print_shown s w vs SW), E2, frag_length_sum, L. now repeat split.
Qed.
