From Coq Require Import List NArith Lia. Import ListNotations.
From Verif Require Import Base BaseFacts Io_Model IoView_Model IoGrow_Model IoGrow_Spec.
Local Open Scope N_scope.

Section Grow.
Variable grow : N -> N -> N.
Variable ev : env.

Lemma g_run_app ops1 : forall st ops2,
  g_run grow ev st (ops1 ++ ops2) =
  let '(st1, xs) := g_run grow ev st ops1 in let '(st2, ys) := g_run grow ev st1 ops2 in (st2, xs ++ ys).
Proof.
  induction ops1 as [|o ops1 IH]; intros st ops2; cbn [app g_run].
  - now destruct (g_run grow ev st ops2).
  - destruct (g_step grow ev st o) as [st' x]. rewrite IH. destruct (g_run grow ev st' ops1) as [st1 xs].
    now destruct (g_run grow ev st1 ops2).
Qed.

Lemma rv_step_data st o : rv_data (fst (rv_step ev st o)) = rv_data st.
Proof.
  destruct o as [p|p|ts|t k|n sg e|ts|t k]; cbn [rv_step].
  - now destruct (lenN (rv_data st) <? p).
  - now destruct (lenN (rv_data st) <? p).
  - unfold with_state, rv_advance. destruct (read ev ts (rv_rest st)); try reflexivity.
    now destruct (advance_signed _ _ _).
  - unfold with_state, rv_advance. destruct (read_range ev t k (rv_rest st)); try reflexivity.
    now destruct (advance_signed _ _ _).
  - unfold with_state, rv_advance. destruct (read_with_endian ev n sg e (rv_rest st)); try reflexivity.
    now destruct (advance_signed _ _ _).
  - unfold with_state. destruct (try_read ev ts (rv_rest st)); try reflexivity.
    cbv zeta. now destruct (advance_signed _ _ _).
  - unfold with_state, rv_advance. destruct (try_read_range ev t k (rv_rest st)) as [[vs|e]| | | |]; try reflexivity.
    now destruct (advance_signed _ _ _).
Qed.

(** A usable view behaves as a fresh view at its position. *)
Lemma reads_usable i : forall ops st p, vw_r st i = Some p ->
  let '(st', xs) := g_run grow ev st (map (GR i) ops) in
  let '(v, ys) := rv_run ev (RView (vw_buf st) p) ops in
  xs = map GRo ys /\ vw_buf st' = vw_buf st /\ vw_r st' i = Some (rv_pos v).
Proof.
  induction ops as [|o ops IH]; intros st p V; cbn [map g_run rv_run].
  - now split.
  - cbn [g_step]. unfold g_read. rewrite V. pose proof (rv_step_data (RView (vw_buf st) p) o) as D.
    destruct (rv_step ev (RView (vw_buf st) p) o) as [[d q] x] eqn:E. cbn [fst rv_data rv_pos] in *. subst d.
    set (st1 := Viewed (vw_buf st) (vw_cap st) (set_pos (vw_r st) i (Some q)) (vw_w st)).
    specialize (IH st1 q). assert (V1 : vw_r st1 i = Some q) by (unfold st1, set_pos; cbn [vw_r]; now rewrite N.eqb_refl).
    specialize (IH V1). change (vw_buf st1) with (vw_buf st) in IH.
    destruct (g_run grow ev st1 (map (GR i) ops)) as [st' xs]. destruct (rv_run ev (RView (vw_buf st) q) ops) as [v ys].
    destruct IH as (-> & -> & ->). now split.
Qed.
Lemma writes_usable i : forall ops st p, vw_w st i = Some p ->
  let '(st', xs) := g_run grow ev st (map (GW i) ops) in
  let '(v, ys) := wv_run ev (WView (vw_buf st) p) ops in
  xs = map GWo ys /\ vw_buf st' = wv_data v /\ vw_w st' i = Some (wv_pos v).
Proof.
  induction ops as [|o ops IH]; intros st p V; cbn [map g_run wv_run].
  - now split.
  - cbn [g_step]. unfold g_write. rewrite V.
    destruct (wv_step ev (WView (vw_buf st) p) o) as [[d q] x] eqn:E. cbn [wv_data wv_pos] in *.
    set (st1 := Viewed d (vw_cap st) (vw_r st) (set_pos (vw_w st) i (Some q))).
    specialize (IH st1 q). assert (V1 : vw_w st1 i = Some q) by (unfold st1, set_pos; cbn [vw_w]; now rewrite N.eqb_refl).
    specialize (IH V1). change (vw_buf st1) with d in IH.
    destruct (g_run grow ev st1 (map (GW i) ops)) as [st' xs]. destruct (wv_run ev (WView d q) ops) as [v ys].
    destruct IH as (-> & -> & ->). now split.
Qed.

(** seek *)
Lemma seek_restores i st q ops : q <= lenN (vw_buf st) ->
  let '(st', xs) := g_run grow ev st (GR i (RSeek q) :: map (GR i) ops) in
  let '(v, ys) := rv_run ev (RView (vw_buf st) q) ops in
  xs = GRo (Ok ROUnit) :: map GRo ys /\ vw_buf st' = vw_buf st /\ vw_r st' i = Some (rv_pos v).
Proof.
  intros Q. cbn [g_run g_step].
  assert (G : g_read ev st i (RSeek q) = (Viewed (vw_buf st) (vw_cap st) (set_pos (vw_r st) i (Some q)) (vw_w st), Ok ROUnit)).
  { unfold g_read. cbn [rv_step rv_data]. rewrite (proj2 (N.ltb_ge _ _)) by lia.
    destruct (vw_r st i) as [p|]; [reflexivity|]. now rewrite (proj2 (N.leb_le _ _)) by lia. }
  rewrite G. set (st1 := Viewed (vw_buf st) (vw_cap st) (set_pos (vw_r st) i (Some q)) (vw_w st)).
  pose proof (reads_usable i ops st1 q) as R. assert (V1 : vw_r st1 i = Some q) by (unfold st1, set_pos; cbn [vw_r]; now rewrite N.eqb_refl).
  specialize (R V1). change (vw_buf st1) with (vw_buf st) in R.
  destruct (g_run grow ev st1 (map (GR i) ops)) as [st' xs]. destruct (rv_run ev (RView (vw_buf st) q) ops) as [v ys].
  destruct R as (-> & -> & ->). now split.
Qed.
Lemma seek_restores_w i st q ops : q <= lenN (vw_buf st) ->
  let '(st', xs) := g_run grow ev st (GW i (WSeek q) :: map (GW i) ops) in
  let '(v, ys) := wv_run ev (WView (vw_buf st) q) ops in
  xs = GWo (Ok WOUnit) :: map GWo ys /\ vw_buf st' = wv_data v /\ vw_w st' i = Some (wv_pos v).
Proof.
  intros Q. cbn [g_run g_step].
  assert (G : g_write ev st i (WSeek q) = (Viewed (vw_buf st) (vw_cap st) (vw_r st) (set_pos (vw_w st) i (Some q)), Ok WOUnit)).
  { unfold g_write. cbn [wv_step wv_data]. rewrite (proj2 (N.ltb_ge _ _)) by lia.
    destruct (vw_w st i) as [p|]; [reflexivity|]. now rewrite (proj2 (N.leb_le _ _)) by lia. }
  rewrite G. set (st1 := Viewed (vw_buf st) (vw_cap st) (vw_r st) (set_pos (vw_w st) i (Some q))).
  pose proof (writes_usable i ops st1 q) as R. assert (V1 : vw_w st1 i = Some q) by (unfold st1, set_pos; cbn [vw_w]; now rewrite N.eqb_refl).
  specialize (R V1). change (vw_buf st1) with (vw_buf st) in R.
  destruct (g_run grow ev st1 (map (GW i) ops)) as [st' xs]. destruct (wv_run ev (WView (vw_buf st) q) ops) as [v ys].
  destruct R as (-> & -> & ->). now split.
Qed.

(** ** Calls on the vector *)
Lemma lenN_removelast (buf : list byte) : buf <> [] -> lenN (removelast buf) + 1 = lenN buf.
Proof.
  intros H. rewrite (app_removelast_last x00 H) at 2. rewrite lenN_app, lenN_cons, lenN_nil. lia.
Qed.
Lemma removelast_same (buf : list byte) : buf <> [] -> (lenN (removelast buf) =? lenN buf) = false.
Proof. intros H. apply N.eqb_neq. pose proof (lenN_removelast buf H). lia. Qed.

Lemma lenN_resize n (buf : list byte) : lenN (takeN n buf ++ repeat x00 (N.to_nat (n - lenN buf))) = n.
Proof. rewrite lenN_app, lenN_takeN. unfold lenN at 2. rewrite repeat_length. lia. Qed.
Lemma resize_same n (buf : list byte) : n = lenN buf -> takeN n buf ++ repeat x00 (N.to_nat (n - lenN buf)) = buf.
Proof.
  intros ->. rewrite N.sub_diag. cbn [N.to_nat repeat]. rewrite app_nil_r. unfold takeN, lenN. rewrite Nnat.Nat2N.id. apply firstn_all.
Qed.

(** The position a call leaves. *)
Definition left_pos (p : option N) (buf : list byte) (cap : N) (o : vecop) : option N :=
  match p with Some p => if keeps p buf cap o then Some p else None | None => None end.

Lemma set_length_spec st bs : lenN bs <> lenN (vw_buf st) ->
  vw_buf (set_length grow st bs) = bs /\
  (forall i, vw_r (set_length grow st bs) i =
     match vw_r st i with
     | Some p => if (lenN bs <=? vw_cap st) && (p <? lenN bs) && (p <? lenN (vw_buf st)) then Some p else None
     | None => None end) /\
  (forall i, vw_w (set_length grow st bs) i =
     match vw_w st i with
     | Some p => if (lenN bs <=? vw_cap st) && (p <? lenN bs) && (p <? lenN (vw_buf st)) then Some p else None
     | None => None end) /\
  (lenN bs <= vw_cap st -> vw_cap (set_length grow st bs) = vw_cap st).
Proof.
  intros NE. unfold set_length. rewrite (proj2 (N.eqb_neq _ _) NE).
  destruct (N.ltb_spec (vw_cap st) (lenN bs)) as [C|C]; cbn [vw_buf vw_r vw_w vw_cap].
  - rewrite (proj2 (N.leb_gt _ _)) by lia. cbn [andb]. unfold none_left.
    repeat split; try lia; intros i; [now destruct (vw_r st i)|now destruct (vw_w st i)].
  - rewrite (proj2 (N.leb_le _ _)) by lia. cbn [andb]. unfold left_before.
    assert (M : forall p, (p <? N.min (lenN bs) (lenN (vw_buf st))) = (p <? lenN bs) && (p <? lenN (vw_buf st))).
    { intros p. destruct (N.ltb_spec p (N.min (lenN bs) (lenN (vw_buf st)))), (N.ltb_spec p (lenN bs)), (N.ltb_spec p (lenN (vw_buf st)));
        cbn [andb]; try reflexivity; lia. }
    repeat split; intros i; [destruct (vw_r st i)|destruct (vw_w st i)]; rewrite ?M; reflexivity.
Qed.

Lemma bools (P Q : bool) : (P = true <-> Q = true) -> P = Q.
Proof. destruct P, Q; intuition congruence. Qed.
Ltac bool_arith :=
  apply bools; rewrite ?andb_true_iff, ?orb_true_iff, ?N.ltb_lt, ?N.leb_le, ?N.eqb_eq; lia.

Lemma bytes_after_resize n (buf : list byte) :
  takeN n buf ++ repeat x00 (N.to_nat (n - lenN buf)) = bytes_after buf (VResize n).
Proof. cbn [bytes_after]. unfold takeN, lenN. do 2 f_equal. lia. Qed.

Lemma vec_step_spec st o : allowed (vw_buf st) o -> lenN (vw_buf st) <= vw_cap st ->
  snd (vec_step grow st o) = Ok tt /\
  vw_buf (fst (vec_step grow st o)) = bytes_after (vw_buf st) o /\
  (forall i, vw_r (fst (vec_step grow st o)) i = left_pos (vw_r st i) (vw_buf st) (vw_cap st) o) /\
  (forall i, vw_w (fst (vec_step grow st o)) i = left_pos (vw_w st i) (vw_buf st) (vw_cap st) o) /\
  (forall p, keeps p (vw_buf st) (vw_cap st) o = true ->
     vw_cap (fst (vec_step grow st o)) = vw_cap st /\ lenN (bytes_after (vw_buf st) o) <= vw_cap st).
Proof.
  intros A HC.
  assert (Resized : forall bs, bs = bytes_after (vw_buf st) o -> lenN bs <> lenN (vw_buf st) ->
     (forall p, (lenN bs <=? vw_cap st) && (p <? lenN bs) && (p <? lenN (vw_buf st)) = keeps p (vw_buf st) (vw_cap st) o) ->
     vw_buf (set_length grow st bs) = bytes_after (vw_buf st) o /\
     (forall i, vw_r (set_length grow st bs) i = left_pos (vw_r st i) (vw_buf st) (vw_cap st) o) /\
     (forall i, vw_w (set_length grow st bs) i = left_pos (vw_w st i) (vw_buf st) (vw_cap st) o) /\
     (forall p, keeps p (vw_buf st) (vw_cap st) o = true ->
        vw_cap (set_length grow st bs) = vw_cap st /\ lenN (bytes_after (vw_buf st) o) <= vw_cap st)).
  { intros bs Ebs NE K. destruct (set_length_spec st bs NE) as (B & R & W & C).
    split; [congruence|]. split; [|split].
    - intros i. rewrite R. unfold left_pos. destruct (vw_r st i); rewrite ?K; reflexivity.
    - intros i. rewrite W. unfold left_pos. destruct (vw_w st i); rewrite ?K; reflexivity.
    - intros p H. rewrite <- K in H. apply andb_true_iff in H. destruct H as [H _]. apply andb_true_iff in H. destruct H as [H _].
      apply N.leb_le in H. split; [exact (C H)|now rewrite <- Ebs]. }
  assert (Same : forall buf' c, buf' = bytes_after (vw_buf st) o -> (forall p, keeps p (vw_buf st) (vw_cap st) o = false) ->
     vw_buf (Viewed buf' c (none_left (vw_r st)) (none_left (vw_w st))) = bytes_after (vw_buf st) o /\
     (forall i, vw_r (Viewed buf' c (none_left (vw_r st)) (none_left (vw_w st))) i = left_pos (vw_r st i) (vw_buf st) (vw_cap st) o) /\
     (forall i, vw_w (Viewed buf' c (none_left (vw_r st)) (none_left (vw_w st))) i = left_pos (vw_w st i) (vw_buf st) (vw_cap st) o) /\
     (forall p, keeps p (vw_buf st) (vw_cap st) o = true ->
        vw_cap (Viewed buf' c (none_left (vw_r st)) (none_left (vw_w st))) = vw_cap st /\ lenN (bytes_after (vw_buf st) o) <= vw_cap st)).
  { intros buf' c E F. split; [exact E|]. cbn [vw_r vw_w]. unfold none_left, left_pos.
    split; [intros i; destruct (vw_r st i); rewrite ?F; reflexivity|].
    split; [intros i; destruct (vw_w st i); rewrite ?F; reflexivity|]. intros p H. rewrite F in H. discriminate H. }
  assert (Still : vw_buf st = bytes_after (vw_buf st) o -> (forall p, keeps p (vw_buf st) (vw_cap st) o = true) ->
     vw_buf st = bytes_after (vw_buf st) o /\
     (forall i, vw_r st i = left_pos (vw_r st i) (vw_buf st) (vw_cap st) o) /\
     (forall i, vw_w st i = left_pos (vw_w st i) (vw_buf st) (vw_cap st) o) /\
     (forall p, keeps p (vw_buf st) (vw_cap st) o = true -> vw_cap st = vw_cap st /\ lenN (bytes_after (vw_buf st) o) <= vw_cap st)).
  { intros E T. split; [exact E|]. unfold left_pos. split; [intros i; destruct (vw_r st i); rewrite ?T; reflexivity|].
    split; [intros i; destruct (vw_w st i); rewrite ?T; reflexivity|]. intros p _. rewrite <- E. now split. }
  destruct o as [b| |n|n|r| |bs|k b]; cbn [vec_step].
  - split; [reflexivity|]. cbn [fst]. apply Resized; [reflexivity|rewrite lenN_app, lenN_cons, lenN_nil; lia|].
    intros p. rewrite lenN_app, lenN_cons, lenN_nil. cbn [keeps]. bool_arith.
  - cbn [allowed] in A. pose proof (lenN_removelast _ A) as L.
    destruct (vw_buf st) as [|c cs] eqn:E; [congruence|]. rewrite <- E in *.
    split; [reflexivity|]. cbn [fst]. apply Resized; [reflexivity|lia|]. intros p. cbn [keeps]. bool_arith.
  - split; [reflexivity|]. cbn [fst]. pose proof (lenN_resize n (vw_buf st)) as L.
    destruct (N.eq_dec n (lenN (vw_buf st))) as [EQ|NE].
    + assert (SL : set_length grow st (takeN n (vw_buf st) ++ repeat x00 (N.to_nat (n - lenN (vw_buf st)))) = st).
      { unfold set_length. rewrite L, (proj2 (N.eqb_eq _ _) EQ). reflexivity. }
      rewrite SL. apply Still; [rewrite <- bytes_after_resize; symmetry; now apply resize_same|].
      intros p. cbn [keeps]. now rewrite (proj2 (N.eqb_eq _ _) EQ).
    + apply Resized; [apply bytes_after_resize|rewrite L; exact NE|]. intros p. rewrite L. cbn [keeps].
      rewrite (proj2 (N.eqb_neq _ _) NE). reflexivity.
  - destruct (N.ltb_spec (vw_cap st) n); (split; [reflexivity|]); cbn [fst].
    + apply Same; [reflexivity|]. intros p. cbn [keeps]. now apply N.leb_gt.
    + apply Still; [reflexivity|]. intros p. cbn [keeps]. now apply N.leb_le.
  - destruct r; (split; [reflexivity|]); cbn [fst]; [now apply Same|now apply Still].
  - split; [reflexivity|]. cbn [fst]. now apply Same.
  - split; [reflexivity|]. cbn [fst]. now apply Same.
  - cbn [allowed] in A. rewrite (proj2 (N.ltb_lt _ _) A). split; [reflexivity|]. cbn [fst vw_buf vw_r vw_w vw_cap].
    assert (B : takeN k (vw_buf st) ++ [b] ++ dropN (k + 1) (vw_buf st) = bytes_after (vw_buf st) (VSet k b)).
    { cbn [bytes_after]. unfold takeN, dropN. replace (N.to_nat (k + 1)) with (S (N.to_nat k)) by lia. reflexivity. }
    split; [exact B|]. unfold left_pos. cbn [keeps]. split; [intros i; now destruct (vw_r st i)|]. split; [intros i; now destruct (vw_w st i)|].
    intros p _. split; [reflexivity|]. rewrite <- B. rewrite !lenN_app, lenN_takeN, lenN_dropN, lenN_cons, lenN_nil. lia.
Qed.

(** An invalid iterator stays invalid, and the bytes change as they should. *)
Lemma vec_step_bytes st o : allowed (vw_buf st) o ->
  snd (vec_step grow st o) = Ok tt /\ vw_buf (fst (vec_step grow st o)) = bytes_after (vw_buf st) o /\
  (forall i, vw_r st i = None -> vw_r (fst (vec_step grow st o)) i = None) /\
  (forall i, vw_w st i = None -> vw_w (fst (vec_step grow st o)) i = None).
Proof.
  intros A.
  assert (Resized : forall bs, vw_buf (set_length grow st bs) = (if lenN bs =? lenN (vw_buf st) then vw_buf st else bs) /\
     (forall i, vw_r st i = None -> vw_r (set_length grow st bs) i = None) /\
     (forall i, vw_w st i = None -> vw_w (set_length grow st bs) i = None)).
  { intros bs. unfold set_length. destruct (lenN bs =? lenN (vw_buf st)); [now split|].
    destruct (vw_cap st <? lenN bs); cbn [vw_buf vw_r vw_w]; unfold none_left, left_before.
    - now split.
    - split; [reflexivity|]. split; intros i H; now rewrite H. }
  destruct o as [b| |n|n|r| |bs|k b]; cbn [vec_step].
  - destruct (Resized (vw_buf st ++ [b])) as (B & R & W). cbn [fst snd]. split; [reflexivity|]. split; [|now split].
    rewrite B. rewrite (proj2 (N.eqb_neq _ _)) by (rewrite lenN_app, lenN_cons, lenN_nil; lia). reflexivity.
  - cbn [allowed] in A. destruct (Resized (removelast (vw_buf st))) as (B & R & W). rewrite (removelast_same _ A) in B.
    destruct (vw_buf st) as [|c cs] eqn:E; [congruence|]. cbn [fst snd]. now split.
  - destruct (Resized (takeN n (vw_buf st) ++ repeat x00 (N.to_nat (n - lenN (vw_buf st))))) as (B & R & W). cbn [fst snd].
    split; [reflexivity|]. split; [|now split]. rewrite B, lenN_resize. destruct (N.eqb_spec n (lenN (vw_buf st))) as [E|E].
    + rewrite <- bytes_after_resize. symmetry. now apply resize_same.
    + apply bytes_after_resize.
  - destruct (vw_cap st <? n); now repeat split.
  - destruct r; now repeat split.
  - now repeat split.
  - now repeat split.
  - cbn [allowed] in A. rewrite (proj2 (N.ltb_lt _ _) A). cbn [fst snd vw_buf vw_r vw_w]. split; [reflexivity|]. split; [|now split].
    cbn [bytes_after]. unfold takeN, dropN. replace (N.to_nat (k + 1)) with (S (N.to_nat k)) by lia. reflexivity.
Qed.

Lemma vecs_none os : forall st, all_allowed (vw_buf st) os ->
  let '(st', xs) := g_run grow ev st (map GV os) in
  xs = map (fun _ => GVo (Ok tt)) os /\ vw_buf st' = bytes_after_all (vw_buf st) os /\
  (forall i, vw_r st i = None -> vw_r st' i = None) /\ (forall i, vw_w st i = None -> vw_w st' i = None).
Proof.
  induction os as [|o os IH]; intros st A; cbn [map g_run].
  - now repeat split.
  - destruct A as [A1 A2]. cbn [g_step]. destruct (vec_step_bytes st o A1) as (X & B & R & W).
    destruct (vec_step grow st o) as [st1 x]. cbn [fst snd] in *. subst x. specialize (IH st1). rewrite B in IH. specialize (IH A2).
    destruct (g_run grow ev st1 (map GV os)) as [st' xs]. destruct IH as (-> & B2 & R2 & W2).
    split; [reflexivity|]. split; [rewrite B2; reflexivity|]. split; intros i H; auto.
Qed.

Lemma vecs_spec p os : forall st, all_allowed (vw_buf st) os -> lenN (vw_buf st) <= vw_cap st ->
  let '(st', xs) := g_run grow ev st (map GV os) in
  xs = map (fun _ => GVo (Ok tt)) os /\ vw_buf st' = bytes_after_all (vw_buf st) os /\
  (forall i, vw_r st i = Some p -> vw_r st' i = if all_keep p (vw_buf st) (vw_cap st) os then Some p else None) /\
  (forall i, vw_w st i = Some p -> vw_w st' i = if all_keep p (vw_buf st) (vw_cap st) os then Some p else None).
Proof.
  induction os as [|o os IH]; intros st A HC; cbn [map g_run].
  - now repeat split.
  - destruct A as [A1 A2]. cbn [g_step all_keep]. destruct (vec_step_spec st o A1 HC) as (X & B & R & W & C).
    destruct (vec_step grow st o) as [st1 x]. cbn [fst snd] in *. subst x.
    destruct (keeps p (vw_buf st) (vw_cap st) o) eqn:K; cbn [andb].
    + destruct (C p K) as [C1 C2]. specialize (IH st1). rewrite B, C1 in IH. specialize (IH A2 C2).
      destruct (g_run grow ev st1 (map GV os)) as [st' xs]. destruct IH as (-> & B2 & R2 & W2).
      split; [reflexivity|]. split; [exact B2|]. split; intros i H.
      * apply R2. rewrite R, H. unfold left_pos. now rewrite K.
      * apply W2. rewrite W, H. unfold left_pos. now rewrite K.
    + pose proof (vecs_none os st1) as NN. rewrite B in NN. specialize (NN A2).
      destruct (g_run grow ev st1 (map GV os)) as [st' xs]. destruct NN as (-> & B2 & R2 & W2).
      split; [reflexivity|]. split; [exact B2|]. split; intros i H.
      * apply R2. rewrite R, H. unfold left_pos. now rewrite K.
      * apply W2. rewrite W, H. unfold left_pos. now rewrite K.
Qed.

(** ** Views after calls on the vector *)
Lemma reads_after st i p os ops : vw_r st i = Some p -> lenN (vw_buf st) <= vw_cap st -> all_allowed (vw_buf st) os ->
  all_keep p (vw_buf st) (vw_cap st) os = true ->
  let '(st', xs) := g_run grow ev st (map GV os ++ map (GR i) ops) in
  let '(v, ys) := rv_run ev (RView (bytes_after_all (vw_buf st) os) p) ops in
  xs = map (fun _ => GVo (Ok tt)) os ++ map GRo ys /\ vw_buf st' = bytes_after_all (vw_buf st) os.
Proof.
  intros V C A K. rewrite g_run_app. pose proof (vecs_spec p os st A C) as VS.
  destruct (g_run grow ev st (map GV os)) as [st1 xs]. destruct VS as (-> & B & R & _). specialize (R i V). rewrite K in R.
  pose proof (reads_usable i ops st1 p R) as U. rewrite B in U. destruct (g_run grow ev st1 (map (GR i) ops)) as [st2 ys].
  destruct (rv_run ev _ ops) as [v zs]. destruct U as (-> & U & _). now split.
Qed.
Lemma writes_after st i p os ops : vw_w st i = Some p -> lenN (vw_buf st) <= vw_cap st -> all_allowed (vw_buf st) os ->
  all_keep p (vw_buf st) (vw_cap st) os = true ->
  let '(st', xs) := g_run grow ev st (map GV os ++ map (GW i) ops) in
  let '(v, ys) := wv_run ev (WView (bytes_after_all (vw_buf st) os) p) ops in
  xs = map (fun _ => GVo (Ok tt)) os ++ map GWo ys /\ vw_buf st' = wv_data v.
Proof.
  intros V C A K. rewrite g_run_app. pose proof (vecs_spec p os st A C) as VS.
  destruct (g_run grow ev st (map GV os)) as [st1 xs]. destruct VS as (-> & B & _ & W). specialize (W i V). rewrite K in W.
  pose proof (writes_usable i ops st1 p W) as U. rewrite B in U. destruct (g_run grow ev st1 (map (GW i) ops)) as [st2 ys].
  destruct (wv_run ev _ ops) as [v zs]. destruct U as (-> & U & _). now split.
Qed.

Lemma unusable_after st i p os : vw_r st i = Some p -> lenN (vw_buf st) <= vw_cap st -> all_allowed (vw_buf st) os ->
  all_keep p (vw_buf st) (vw_cap st) os = false -> forall op, uses_position op = true ->
  snd (g_run grow ev st (map GV os ++ [GR i op])) = map (fun _ => GVo (Ok tt)) os ++ [GRo UB].
Proof.
  intros V C A K op O. rewrite g_run_app. pose proof (vecs_spec p os st A C) as VS.
  destruct (g_run grow ev st (map GV os)) as [st1 xs]. destruct VS as (-> & B & R & _). specialize (R i V). rewrite K in R.
  cbn [g_run g_step]. unfold g_read. rewrite R. destruct op; cbn in O; try discriminate O; reflexivity.
Qed.
Lemma unusable_after_w st i p os : vw_w st i = Some p -> lenN (vw_buf st) <= vw_cap st -> all_allowed (vw_buf st) os ->
  all_keep p (vw_buf st) (vw_cap st) os = false -> forall op, uses_position_w op = true ->
  snd (g_run grow ev st (map GV os ++ [GW i op])) = map (fun _ => GVo (Ok tt)) os ++ [GWo UB].
Proof.
  intros V C A K op O. rewrite g_run_app. pose proof (vecs_spec p os st A C) as VS.
  destruct (g_run grow ev st (map GV os)) as [st1 xs]. destruct VS as (-> & B & _ & W). specialize (W i V). rewrite K in W.
  cbn [g_run g_step]. unfold g_write. rewrite W. destruct op; cbn in O; try discriminate O; reflexivity.
Qed.

(** Appending to a vector with room. *)
Lemma pushes_bytes bs : forall buf, bytes_after_all buf (map VPush bs) = buf ++ bs.
Proof.
  induction bs as [|b bs IH]; intros buf; [symmetry; apply app_nil_r|]. unfold bytes_after_all in *. cbn [map fold_left bytes_after].
  rewrite IH, <- app_assoc. reflexivity.
Qed.
Lemma pushes_allowed bs : forall buf, all_allowed buf (map VPush bs).
Proof. induction bs as [|b bs IH]; intros buf; cbn [map all_allowed allowed]; [exact I|split; [exact I|apply IH]]. Qed.
Lemma pushes_keep p cap bs : forall buf, p < lenN buf -> lenN buf + lenN bs <= cap -> all_keep p buf cap (map VPush bs) = true.
Proof.
  induction bs as [|b bs IH]; intros buf P L; [reflexivity|]. cbn [map all_keep keeps bytes_after]. rewrite lenN_cons in L.
  rewrite !(proj2 (N.ltb_lt _ _)) by lia. cbn [andb]. apply IH; rewrite lenN_app, lenN_cons, lenN_nil; lia.
Qed.
Lemma appended st i p bs ops : vw_r st i = Some p -> p < lenN (vw_buf st) -> lenN (vw_buf st) + lenN bs <= vw_cap st ->
  let '(st', xs) := g_run grow ev st (map (fun b => GV (VPush b)) bs ++ map (GR i) ops) in
  let '(v, ys) := rv_run ev (RView (vw_buf st ++ bs) p) ops in
  xs = map (fun _ => GVo (Ok tt)) bs ++ map GRo ys /\ vw_buf st' = vw_buf st ++ bs.
Proof.
  intros V P L. pose proof (reads_after st i p (map VPush bs) ops V ltac:(lia) (pushes_allowed bs _) (pushes_keep p _ bs _ P L)) as H.
  rewrite pushes_bytes, !map_map in H. exact H.
Qed.
End Grow.

Lemma grow_refuted : forall grow, exists st i p,
  vw_r st i = Some p /\ p <= lenN (vw_buf st) /\ lenN (vw_buf st) <= vw_cap st /\
  forall ev, snd (g_run grow ev st [GV (VPush x05); GR i (RRead [TPlain (SInt 1 false)])]) = [GVo (Ok tt); GRo UB].
Proof.
  intros grow. exists (Viewed [x01; x02] 2 (fun _ => Some 0) (fun _ => Some 0)), 0, 0.
  split; [reflexivity|]. split; [vm_compute; discriminate|]. split; [vm_compute; discriminate|]. intros ev. reflexivity.
Qed.
Lemma caught_up_refuted : forall grow, exists st i p,
  vw_r st i = Some p /\ p <= lenN (vw_buf st) /\ lenN (vw_buf st) + 1 <= vw_cap st /\
  forall ev, snd (g_run grow ev st [GV (VPush x05); GR i (RRead [TPlain (SInt 1 false)])]) = [GVo (Ok tt); GRo UB].
Proof.
  intros grow. exists (Viewed [x01; x02] 100 (fun _ => Some 2) (fun _ => Some 0)), 0, 2.
  split; [reflexivity|]. split; [vm_compute; discriminate|]. split; [vm_compute; discriminate|]. intros ev. reflexivity.
Qed.

Lemma unusable_both grow ev st i p os :
  lenN (vw_buf st) <= vw_cap st -> all_allowed (vw_buf st) os -> all_keep p (vw_buf st) (vw_cap st) os = false ->
  (vw_r st i = Some p -> forall op, uses_position op = true ->
     snd (g_run grow ev st (map GV os ++ [GR i op])) = map (fun _ => GVo (Ok tt)) os ++ [GRo UB]) /\
  (vw_w st i = Some p -> forall op, uses_position_w op = true ->
     snd (g_run grow ev st (map GV os ++ [GW i op])) = map (fun _ => GVo (Ok tt)) os ++ [GWo UB]).
Proof. intros C A K. split; intros V op O; [now apply (unusable_after grow ev st i p)|now apply (unusable_after_w grow ev st i p)]. Qed.
