(** Proofs about growing a buffer. *)
From Coq Require Import List Lia NArith. Import ListNotations.
From Verif Require Import Base BaseFacts Io_Model Io_Spec Io_Proofs IoView_Model IoView_Spec IoView_Proofs Grow_Spec.
Local Open Scope N_scope.

Definition get (i : N) (l : list byte) : option byte := nth_error l (N.to_nat i).
Lemma get_app i a b : get i (a ++ b) = if i <? lenN a then get i a else get (i - lenN a) b.
Proof.
  unfold get, lenN. destruct (N.ltb_spec i (N.of_nat (length a))).
  - apply nth_error_app1. lia.
  - rewrite nth_error_app2 by lia. f_equal. lia.
Qed.
Lemma nth_firstn (l : list byte) : forall i n, (i < n)%nat -> nth_error (firstn n l) i = nth_error l i.
Proof.
  induction l as [|x l IH]; intros i n H; destruct n as [|n]; try lia; [reflexivity|]. cbn [firstn].
  destruct i as [|i]; [reflexivity|]. cbn [nth_error]. apply IH. lia.
Qed.
Lemma get_take i n l : i < n -> get i (takeN n l) = get i l.
Proof. intros H. unfold get, takeN. apply nth_firstn. lia. Qed.
Lemma get_drop i n l : get i (dropN n l) = get (i + n) l.
Proof.
  unfold get, dropN. replace (N.to_nat (i + n)) with (N.to_nat n + N.to_nat i)%nat by lia. generalize (N.to_nat i), (N.to_nat n). clear.
  intros i n. revert l. induction n as [|n IH]; intros l; [reflexivity|]. destruct l as [|x l]; [now destruct i|]. cbn [skipn Nat.add nth_error]. apply IH.
Qed.
Lemma get_splice i buf pos bs : pos + lenN bs <= lenN buf ->
  get i (splice buf pos bs) = if (pos <=? i) && (i <? pos + lenN bs) then get (i - pos) bs else get i buf.
Proof.
  intros H. unfold splice. rewrite get_app, lenN_takeN. replace (N.min pos (lenN buf)) with pos by lia.
  destruct (N.leb_spec pos i) as [A|A].
  - rewrite (proj2 (N.ltb_ge _ _)) by lia. rewrite get_app. cbn [andb].
    destruct (N.ltb_spec (i - pos) (lenN bs)); destruct (N.ltb_spec i (pos + lenN bs)); try lia; [reflexivity|].
    rewrite get_drop. f_equal. lia.
  - rewrite (proj2 (N.ltb_lt _ _)) by lia. cbn [andb]. now apply get_take.
Qed.
Lemma get_ext a b : length a = length b -> (forall i, get i a = get i b) -> a = b.
Proof.
  revert b. induction a as [|x a IH]; intros b L H; destruct b as [|y b]; try discriminate L; [reflexivity|].
  pose proof (H 0) as H0. cbn in H0. injection H0 as ->. f_equal. apply IH; [cbn in L; lia|].
  intros i. specialize (H (i + 1)). unfold get in *. replace (N.to_nat (i + 1)) with (S (N.to_nat i)) in H by lia. exact H.
Qed.

Section G.
Context (ev : env).
Notation bytes args := (enc_args ev args).
(** The bytes after all steps, if they fit. *)
Fixpoint image (pos : N) (w : list wstep) (buf : list byte) : list byte :=
  match w with
  | [] => buf
  | Put args :: r => image (pos + args_size args) r (splice buf pos (bytes args))
  | Jump p :: r => image p r buf
  end.
Fixpoint endpos (pos : N) (w : list wstep) : N :=
  match w with [] => pos | Put args :: r => endpos (pos + args_size args) r | Jump p :: r => endpos p r end.
Fixpoint covered (pos : N) (w : list wstep) (i : N) : Prop :=
  match w with
  | [] => False
  | Put args :: r => (pos <= i < pos + args_size args) \/ covered (pos + args_size args) r i
  | Jump p :: r => covered p r i
  end.
Lemma covered_dec w : forall pos i, covered pos w i \/ ~ covered pos w i.
Proof.
  induction w as [|[args|p] w IH]; intros pos i; cbn [covered]; [tauto| |apply IH].
  destruct (IH (pos + args_size args) i); [tauto|]. destruct (N.lt_ge_cases i pos); [right; intros [?|?]; [lia|tauto]|].
  destruct (N.lt_ge_cases i (pos + args_size args)); [left; lia|right]. intros [?|?]; [lia|tauto].
Qed.
Lemma size_of args : Forall arg_ok args -> lenN (bytes args) = args_size args.
Proof. apply lenN_enc_args. Qed.
Definition fine (w : list wstep) := Forall wstep_ok w.
Lemma put_ok args w : fine (Put args :: w) -> Forall arg_ok args /\ lenN (bytes args) = args_size args /\ fine w.
Proof. intros F. pose proof (Forall_inv F) as (_ & A & _). split; [exact A|]. split; [now apply size_of|exact (Forall_inv_tail F)]. Qed.

Lemma image_len : forall w pos buf, fine w -> extent pos w <= lenN buf -> lenN (image pos w buf) = lenN buf.
Proof.
  induction w as [|[args|p] w IH]; intros pos buf F E; cbn [image extent] in *; [reflexivity| |].
  - apply put_ok in F. destruct F as (A & L & F). rewrite IH; rewrite ?lenN_splice by lia; auto; lia.
  - apply IH; [exact (Forall_inv_tail F)|lia].
Qed.
(** Bytes not covered are as they were; the others do not depend on what was there. *)
Lemma image_frame : forall w pos buf i, fine w -> extent pos w <= lenN buf -> ~ covered pos w i -> get i (image pos w buf) = get i buf.
Proof.
  induction w as [|[args|p] w IH]; intros pos buf i F E C; cbn [image extent covered] in *; [reflexivity| |].
  - apply put_ok in F. destruct F as (A & L & F). rewrite IH; [|exact F|rewrite lenN_splice; lia|tauto].
    rewrite get_splice by lia. destruct (N.leb_spec pos i); [|reflexivity]. destruct (N.ltb_spec i (pos + lenN (bytes args))); [|reflexivity].
    exfalso. apply C. left. lia.
  - apply IH; [exact (Forall_inv_tail F)|lia|exact C].
Qed.
Lemma image_over : forall w pos a b i, fine w -> lenN a = lenN b -> extent pos w <= lenN a -> covered pos w i ->
  get i (image pos w a) = get i (image pos w b).
Proof.
  induction w as [|[args|p] w IH]; intros pos a b i F LE E C; cbn [image extent covered] in *; [contradiction| |].
  - apply put_ok in F. destruct F as (A & L & F).
    destruct (covered_dec w (pos + args_size args) i) as [D|D].
    + apply IH; [exact F|rewrite !lenN_splice; lia|rewrite lenN_splice; lia|exact D].
    + destruct C as [C|C]; [|contradiction]. rewrite !image_frame by (try exact F; try exact D; rewrite lenN_splice; lia).
      rewrite !get_splice by lia. rewrite (proj2 (N.leb_le _ _)), (proj2 (N.ltb_lt _ _)) by lia. reflexivity.
  - apply IH; [exact (Forall_inv_tail F)|exact LE|lia|exact C].
Qed.
Lemma image_agree w pos a b : fine w -> lenN a = lenN b -> extent pos w <= lenN a -> (forall i, ~ covered pos w i -> get i a = get i b) ->
  image pos w a = image pos w b.
Proof.
  intros F L E H. apply get_ext.
  - pose proof (image_len w pos a F E). pose proof (image_len w pos b F ltac:(lia)). unfold lenN in *. lia.
  - intros i. destruct (covered_dec w pos i) as [C|C]; [now apply image_over|]. rewrite !image_frame by (auto; lia). now apply H.
Qed.
Lemma image_app w : forall pos a b, fine w -> extent pos w <= lenN a -> image pos w (a ++ b) = image pos w a ++ b.
Proof.
  induction w as [|[args|p] w IH]; intros pos a b F E; cbn [image extent] in *; [reflexivity| |].
  - apply put_ok in F. destruct F as (A & L & F). rewrite <- IH; [|exact F|rewrite lenN_splice; lia]. f_equal. unfold splice.
    rewrite takeN_app, dropN_app. replace (pos - lenN a) with 0 by lia. replace (pos + lenN (bytes args) - lenN a) with 0 by lia.
    rewrite takeN_0, dropN_0, app_nil_r, <- !app_assoc. reflexivity.
  - apply IH; [exact (Forall_inv_tail F)|lia].
Qed.

(** One attempt. *)
Definition attempt_done (w : list wstep) (pos : N) (buf : list byte) (o : outcome (bool * wview)) : Prop :=
  exists v, o = Ok (extent pos w <=? lenN buf, v) /\ lenN (wv_data v) = lenN buf /\
    (forall i, ~ covered pos w i -> get i (wv_data v) = get i buf) /\
    (extent pos w <= lenN buf -> v = WView (image pos w buf) (endpos pos w)).
Lemma done_put args w pos buf o : fine (Put args :: w) -> pos + args_size args <= lenN buf ->
  attempt_done w (pos + args_size args) (splice buf pos (bytes args)) o -> attempt_done (Put args :: w) pos buf o.
Proof.
  intros F LE (v & -> & L & FR & IM). apply put_ok in F. destruct F as (A & LA & F). rewrite lenN_splice in * by lia. exists v. cbn [extent covered image endpos].
  split; [f_equal; f_equal; destruct (N.leb_spec (extent (pos + args_size args) w) (lenN buf)); symmetry; [apply N.leb_le|apply N.leb_gt]; lia|].
  split; [exact L|]. split.
  - intros i C. rewrite FR by tauto. rewrite get_splice by lia.
    destruct (N.leb_spec pos i); [|reflexivity]. destruct (N.ltb_spec i (pos + lenN (bytes args))); [|reflexivity]. exfalso. apply C. left. lia.
  - intros E. apply IM. lia.
Qed.
Lemma done_jump p w pos buf o : p <= lenN buf -> attempt_done w p buf o -> attempt_done (Jump p :: w) pos buf o.
Proof.
  intros LE (v & -> & L & FR & IM). exists v. cbn [extent covered image endpos].
  split; [f_equal; f_equal; destruct (N.leb_spec (extent p w) (lenN buf)); symmetry; [apply N.leb_le|apply N.leb_gt]; lia|].
  split; [exact L|]. split; [exact FR|]. intros E. apply IM. lia.
Qed.
Lemma done_not w pos buf v : lenN buf < extent pos w -> lenN (wv_data v) = lenN buf ->
  (forall i, ~ covered pos w i -> get i (wv_data v) = get i buf) -> attempt_done w pos buf (Ok (false, v)).
Proof. intros E L FR. exists v. rewrite (proj2 (N.leb_gt _ _)) by exact E. repeat split; auto. lia. Qed.

Lemma attempt_char : forall w pos buf, fine w -> pos <= lenN buf -> lenN buf < ptr_max -> attempt_done w pos buf (attempt ev w (WView buf pos)).
Proof.
  induction w as [|[args|p] w IH]; intros pos buf F P L.
  - exists (WView buf pos). cbn. rewrite (proj2 (N.leb_le _ _)) by lia. auto.
  - pose proof (put_ok _ _ F) as (A & LA & F'). pose proof (Forall_inv F) as (NE & _ & SZ). cbn [attempt wv_step]. rewrite wv_write_char by (cbn [wv_data]; assumption).
    cbn [wv_data wv_pos]. destruct (N.ltb_spec (lenN buf) (pos + args_size args)) as [S|S].
    + apply done_not; [cbn [extent]; lia|reflexivity|reflexivity].
    + apply done_put; [exact F|exact S|]. apply IH; [exact F'|rewrite lenN_splice; lia|rewrite lenN_splice; lia].
  - cbn [attempt wv_step wv_data]. destruct (N.ltb_spec (lenN buf) p) as [S|S].
    + apply done_not; [cbn [extent]; lia|reflexivity|reflexivity].
    + apply done_jump; [exact S|]. apply IH; [exact (Forall_inv_tail F)|exact S|exact L].
Qed.
Lemma try_attempt_char : forall w pos buf, fine w -> pos <= lenN buf -> lenN buf < ptr_max -> attempt_done w pos buf (try_attempt ev w (WView buf pos)).
Proof.
  induction w as [|[args|p] w IH]; intros pos buf F P L.
  - exists (WView buf pos). cbn. rewrite (proj2 (N.leb_le _ _)) by lia. auto.
  - pose proof (put_ok _ _ F) as (A & LA & F'). pose proof (Forall_inv F) as (NE & _ & SZ). cbn [try_attempt]. rewrite wv_trywrite_char by (cbn [wv_data]; assumption).
    cbn zeta. cbn [wv_data wv_pos]. destruct (N.ltb_spec (lenN buf) (pos + args_size args)) as [S|S].
    + pose proof (size_of _ (fit_prefix_ok args (lenN buf - pos) A)) as LF. pose proof (fit_prefix_size args (lenN buf - pos)) as LR.
      apply done_not; cbn [extent wv_data]; [lia|rewrite lenN_splice; lia|]. intros i C. cbn [covered] in C. rewrite get_splice by lia.
      destruct (N.leb_spec pos i); [|reflexivity]. destruct (N.ltb_spec i (pos + lenN (bytes (fit_prefix args (lenN buf - pos))))); [|reflexivity].
      exfalso. apply C. left. lia.
    + rewrite fit_prefix_all by lia. apply done_put; [exact F|exact S|]. apply IH; [exact F'|rewrite lenN_splice; lia|rewrite lenN_splice; lia].
  - cbn [try_attempt wv_step wv_data]. destruct (N.ltb_spec (lenN buf) p) as [S|S].
    + apply done_not; [cbn [extent]; lia|reflexivity|reflexivity].
    + apply done_jump; [exact S|]. apply IH; [exact (Forall_inv_tail F)|exact S|exact L].
Qed.

(** Growing. *)
Definition zeros (n : N) : list byte := repeat x00 (N.to_nat n).
Lemma lenN_zeros n : lenN (zeros n) = n.
Proof. unfold zeros, lenN. rewrite repeat_length. lia. Qed.
Lemma zeros_plus a b : zeros (a + b) = zeros a ++ zeros b.
Proof. unfold zeros. rewrite <- repeat_app. f_equal. lia. Qed.
Section Once.
Context (once : list wstep -> wview -> outcome (bool * wview)) (w : list wstep) (F : fine w)
  (H : forall buf, lenN buf < ptr_max -> attempt_done w 0 buf (once w (wv_init buf))).
Lemma grow_char : forall sizes buf, ascending (lenN buf) sizes -> Forall (fun n => n < ptr_max) sizes ->
  (forall i, ~ covered 0 w i -> get i buf = get i (zeros (lenN buf))) ->
  grow (once w) sizes buf =
    match find (fun n => extent 0 w <=? n) sizes with
    | Some n => Ok (Some (WView (image 0 w (zeros n)) (endpos 0 w)))
    | None => Ok None
    end.
Proof.
  induction sizes as [|n sizes IH]; intros buf AS FS AG; [reflexivity|]. cbn [grow find ascending] in *. destruct AS as [LE AS].
  assert (R : resized buf n = buf ++ zeros (n - lenN buf)). { unfold resized. rewrite takeN_all by lia. reflexivity. }
  pose proof (Forall_inv FS) as BN. cbn beta in BN.
  assert (LR : lenN (resized buf n) = n). { rewrite R, lenN_app, lenN_zeros. lia. }
  assert (AR : forall i, ~ covered 0 w i -> get i (resized buf n) = get i (zeros n)).
  { intros i C. rewrite R. replace n with (lenN buf + (n - lenN buf)) at 2 by lia. rewrite zeros_plus, !get_app, lenN_zeros.
    destruct (N.ltb_spec i (lenN buf)); [now apply AG|reflexivity]. }
  destruct (H (resized buf n) ltac:(lia)) as (v & E & LV & FR & IM). rewrite E. cbn [obind]. rewrite LR in *.
  destruct (N.leb_spec (extent 0 w) n) as [S|S].
  - rewrite IM by exact S. do 2 f_equal. f_equal. apply image_agree; [exact F|rewrite LR, lenN_zeros; reflexivity|lia|exact AR].
  - rewrite IH; [reflexivity|rewrite LV; exact AS|exact (Forall_inv_tail FS)|]. intros i C. rewrite FR by exact C. rewrite LV. now apply AR.
Qed.
End Once.
End G.

Lemma attempt_init ev w buf : Forall wstep_ok w -> lenN buf < ptr_max -> attempt_done ev w 0 buf (attempt ev w (wv_init buf)).
Proof. intros F L. apply attempt_char; [exact F|apply N.le_0_l|exact L]. Qed.
Lemma try_attempt_init ev w buf : Forall wstep_ok w -> lenN buf < ptr_max -> attempt_done ev w 0 buf (try_attempt ev w (wv_init buf)).
Proof. intros F L. apply try_attempt_char; [exact F|apply N.le_0_l|exact L]. Qed.

Lemma fits_exactly ev w buf : Forall wstep_ok w -> lenN buf < ptr_max ->
  exists v, attempt ev w (wv_init buf) = Ok (extent 0 w <=? lenN buf, v) /\ lenN (wv_data v) = lenN buf.
Proof. intros F L. destruct (attempt_init ev w buf F L) as (v & E & LV & _). exists v. auto. Qed.
Lemma try_fits_exactly ev w buf : Forall wstep_ok w -> lenN buf < ptr_max ->
  exists v, try_attempt ev w (wv_init buf) = Ok (extent 0 w <=? lenN buf, v) /\ lenN (wv_data v) = lenN buf.
Proof. intros F L. destruct (try_attempt_init ev w buf F L) as (v & E & LV & _). exists v. auto. Qed.
Lemma try_same ev w buf : Forall wstep_ok w -> lenN buf < ptr_max -> extent 0 w <= lenN buf ->
  try_attempt ev w (wv_init buf) = attempt ev w (wv_init buf).
Proof.
  intros F L E. destruct (attempt_init ev w buf F L) as (v & -> & _ & _ & I). destruct (try_attempt_init ev w buf F L) as (v' & -> & _ & _ & I').
  rewrite I, I' by exact E. reflexivity.
Qed.
Lemma same_bytes ev w buf more : Forall wstep_ok w -> lenN buf + lenN more < ptr_max -> extent 0 w <= lenN buf ->
  exists data pos, attempt ev w (wv_init buf) = Ok (true, WView data pos) /\ attempt ev w (wv_init (buf ++ more)) = Ok (true, WView (data ++ more) pos).
Proof.
  intros F L E. destruct (attempt_init ev w buf F ltac:(lia)) as (v & -> & _ & _ & I).
  destruct (attempt_init ev w (buf ++ more) F) as (v' & -> & _ & _ & I'); [rewrite lenN_app; lia|]. rewrite lenN_app in *.
  exists (image ev 0 w buf), (endpos 0 w). rewrite I, I' by lia. rewrite !(proj2 (N.leb_le _ _)) by lia. rewrite image_app by (auto; lia). auto.
Qed.
Lemma grow_gen ev w once sizes : Forall wstep_ok w -> (forall buf, lenN buf < ptr_max -> attempt_done ev w 0 buf (once w (wv_init buf))) ->
  ascending 0 sizes -> Forall (fun n => n < ptr_max) sizes ->
  grow (once w) sizes [] =
    match find (fun n => extent 0 w <=? n) sizes with
    | Some n => let! (_, v) := attempt ev w (wv_init (repeat x00 (N.to_nat n))) in Ok (Some v)
    | None => Ok None
    end.
Proof.
  intros F H A S. rewrite (grow_char ev once w F H sizes []); [|exact A|exact S|reflexivity].
  destruct (find _ sizes) as [n|] eqn:E; [|reflexivity]. apply find_some in E. destruct E as [IN E]. apply N.leb_le in E.
  rewrite Forall_forall in S. specialize (S n IN). cbn beta in S. destruct (attempt_init ev w (zeros n) F) as (v & X & _ & _ & I); [rewrite lenN_zeros; exact S|].
  fold (zeros n). rewrite X. cbn [obind]. rewrite I by (rewrite lenN_zeros; exact E). reflexivity.
Qed.
Lemma grow_thm ev w sizes : Forall wstep_ok w -> ascending 0 sizes -> Forall (fun n => n < ptr_max) sizes ->
  grow (attempt ev w) sizes [] =
    match find (fun n => extent 0 w <=? n) sizes with
    | Some n => let! (_, v) := attempt ev w (wv_init (repeat x00 (N.to_nat n))) in Ok (Some v)
    | None => Ok None
    end.
Proof. intros F. apply (grow_gen ev w (attempt ev)); [exact F|]. intros buf L. now apply attempt_init. Qed.
Lemma try_grow_thm ev w sizes : Forall wstep_ok w -> ascending 0 sizes -> Forall (fun n => n < ptr_max) sizes ->
  grow (try_attempt ev w) sizes [] =
    match find (fun n => extent 0 w <=? n) sizes with
    | Some n => let! (_, v) := attempt ev w (wv_init (repeat x00 (N.to_nat n))) in Ok (Some v)
    | None => Ok None
    end.
Proof. intros F. apply (grow_gen ev w (try_attempt ev)); [exact F|]. intros buf L. now apply try_attempt_init. Qed.
