(** Proofs about grouping values into calls. *)
From Coq Require Import List Lia NArith. Import ListNotations.
From Verif Require Import Base BaseFacts Io_Model Io_Spec Io_Proofs IoRead_Proofs IoView_Model IoView_Spec IoView_Proofs Group_Spec.
Local Open Scope N_scope.

Lemma rg_cons g gs : read_groups_ok (g :: gs) -> rop_ok (RRead g) /\ (gs = [] \/ read_groups_ok gs).
Proof.
  intros (_ & F & V & S). cbn [concat] in V, S. apply Forall_app in V. destruct V as [V1 V2]. rewrite types_size_app in S.
  split.
  - cbn [rop_ok]. unfold ptr_max. split; [exact (Forall_inv F)|]. split; [exact V1|lia].
  - destruct gs; [now left|right]. split; [discriminate|]. split; [exact (Forall_inv_tail F)|]. split; [exact V2|lia].
Qed.
Lemma rg_all gs : read_groups_ok gs -> rop_ok (RRead (concat gs)).
Proof.
  intros (NE & F & V & S). cbn [rop_ok]. unfold ptr_max. split; [|tauto].
  destruct gs as [|g gs]; [congruence|]. apply Forall_inv in F. destruct g; [congruence|discriminate].
Qed.

Lemma read_grouped ev gs : forall v, rv_pos v <= lenN (rv_data v) -> lenN (rv_data v) < size_mod -> read_groups_ok gs ->
  match read_groups ev v gs with
  | (v', Ok vs) => rv_step ev v (RRead (concat gs)) = (v', Ok (ROVals vs))
  | (v', o) => o = Throw out_of_range /\ rv_step ev v (RRead (concat gs)) = (v, Throw out_of_range) /\
               rv_data v' = rv_data v /\ rv_pos v <= rv_pos v' <= lenN (rv_data v)
  end.
Proof.
  induction gs as [|g gs IH]; intros v I L G; [now destruct G|].
  pose proof (rg_all _ G) as A. destruct (rg_cons _ _ G) as (R & G').
  rewrite (rv_step_char ev v (RRead (concat _))) by assumption. cbn zeta.
  cbn [read_groups]. rewrite rv_step_char by assumption. cbn zeta. cbn [concat]. rewrite types_size_app.
  destruct (N.ltb_spec (lenN (rv_data v)) (rv_pos v + types_size g)) as [B|B].
  - rewrite (proj2 (N.ltb_lt _ _)) by lia. repeat split; lia.
  - destruct G' as [->|G'].
    + cbn [read_groups obind concat]. change (types_size []) with 0. rewrite N.add_0_r.
      rewrite (proj2 (N.ltb_ge _ _)) by lia. now rewrite !app_nil_r.
    + specialize (IH (RView (rv_data v) (rv_pos v + types_size g)) B L G').
      rewrite (rv_step_char ev (RView _ _)) in IH by (try assumption; now apply rg_all). cbn zeta in IH. cbn [rv_data rv_pos] in IH.
      rewrite <- N.add_assoc in IH.
      destruct (read_groups ev _ gs) as [v' [vs|e| | |]]; cbn [obind].
      * destruct (N.ltb_spec (lenN (rv_data v)) (rv_pos v + (types_size g + types_size (concat gs)))) as [C|C]; [discriminate|].
        injection IH as <- <-. f_equal. do 2 f_equal.
        rewrite decode_all_app by (rewrite lenN_rv_rest; lia). f_equal. unfold rv_rest. cbn [rv_data rv_pos].
        rewrite dropN_dropN. now rewrite N.add_comm.
      * destruct IH as (E & S & D & P). injection E as ->.
        destruct (N.ltb_spec (lenN (rv_data v)) (rv_pos v + (types_size g + types_size (concat gs)))); [|discriminate].
        repeat split; try assumption; lia.
      * destruct IH as [IH _]; discriminate.
      * destruct IH as [IH _]; discriminate.
      * destruct IH as [IH _]; discriminate.
Qed.

Lemma fit_count_app a b room : Forall vtype_ok b ->
  fit_count (a ++ b) room =
    if types_size a <=? room then (length a + fit_count b (room - types_size a))%nat else fit_count a room.
Proof.
  intros V. revert room. induction a as [|t a IH]; intros room.
  - change (types_size []) with 0. cbn [app length Nat.add]. rewrite (proj2 (N.leb_le _ _)) by lia. now rewrite N.sub_0_r.
  - rewrite types_size_cons. cbn [app fit_count length]. rewrite IH.
    destruct (N.leb_spec (value_size t) room).
    + destruct (N.leb_spec (types_size a) (room - value_size t)).
      * rewrite (proj2 (N.leb_le _ _)) by lia. cbn [Nat.add]. do 3 f_equal. lia.
      * rewrite (proj2 (N.leb_gt _ _)) by lia. reflexivity.
    + rewrite (proj2 (N.leb_gt _ _)) by lia. reflexivity.
Qed.
Lemma fit_count_all a room : types_size a <= room -> fit_count a room = length a.
Proof.
  revert room. induction a as [|t a IH]; intros room; [reflexivity|]. rewrite types_size_cons. intros H.
  cbn [fit_count length]. rewrite (proj2 (N.leb_le _ _)) by lia. rewrite IH by lia. reflexivity.
Qed.
Lemma fit_count_0 b : Forall vtype_ok b -> fit_count b 0 = 0%nat.
Proof.
  intros V. destruct b as [|t b]; [reflexivity|]. apply Forall_inv in V. pose proof (value_size_pos t V).
  cbn [fit_count]. rewrite (proj2 (N.leb_gt _ _)) by lia. reflexivity.
Qed.

Lemma try_read_app ev v a b : rv_pos v <= lenN (rv_data v) -> lenN (rv_data v) < size_mod ->
  rop_ok (RTryRead a) -> rop_ok (RTryRead b) -> rop_ok (RTryRead (a ++ b)) ->
  exists v1 ra v2 rb, rv_step ev v (RTryRead a) = (v1, Ok (ROTry ra)) /\ rv_pos v1 <= lenN (rv_data v1) /\ rv_data v1 = rv_data v /\
    rv_step ev v1 (RTryRead b) = (v2, Ok (ROTry rb)) /\ rv_step ev v (RTryRead (a ++ b)) = (v2, Ok (ROTry (ra ++ rb))).
Proof.
  intros I L A B AB. rewrite !(rv_step_char ev v) by assumption. cbn zeta.
  eexists; eexists; eexists; eexists. split; [reflexivity|]. cbn [rv_data rv_pos]. split; [lia|]. split; [reflexivity|].
  rewrite rv_step_char; try assumption; [|unfold rv_inv; cbn [rv_data rv_pos]; lia].
  cbn zeta. cbn [rv_data rv_pos]. split; [reflexivity|]. rewrite types_size_app.
  assert (VB : Forall vtype_ok b) by apply B.
  rewrite fit_count_app by assumption. set (room := lenN (rv_data v) - rv_pos v).
  destruct (N.leb_spec (types_size a) room) as [F|F].
  - rewrite (fit_count_all a) by assumption. rewrite firstn_all, Nat.sub_diag. cbn [repeat]. rewrite app_nil_r.
    replace (lenN (rv_data v) - N.min (lenN (rv_data v)) (rv_pos v + types_size a)) with (room - types_size a) by (unfold room; lia).
    rewrite firstn_app_2. replace (length (a ++ b) - (length a + fit_count b (room - types_size a)))%nat
      with (length b - fit_count b (room - types_size a))%nat by (rewrite app_length; lia).
    rewrite decode_all_app by (rewrite lenN_rv_rest; fold room; lia). rewrite map_app, app_assoc. f_equal.
    + f_equal. unfold room in F. lia.
    + do 5 f_equal. unfold rv_rest. cbn [rv_data rv_pos]. f_equal. rewrite dropN_dropN. f_equal. unfold room in F. lia.
  - replace (lenN (rv_data v) - N.min (lenN (rv_data v)) (rv_pos v + types_size a)) with 0 by (unfold room in F; lia).
    rewrite fit_count_0 by assumption. cbn [firstn decode_all map app]. rewrite Nat.sub_0_r.
    pose proof (fit_count_le a room). rewrite firstn_app. replace (fit_count a room - length a)%nat with 0%nat by lia.
    cbn [firstn]. rewrite app_nil_r. rewrite <- app_assoc, <- repeat_app. f_equal.
    + f_equal. unfold room in F. lia.
    + do 4 f_equal. rewrite app_length. lia.
Qed.

Lemma try_read_grouped ev gs : forall v, rv_pos v <= lenN (rv_data v) -> lenN (rv_data v) < size_mod -> read_groups_ok gs ->
  exists v' rs, try_read_groups ev v gs = (v', Ok rs) /\ rv_step ev v (RTryRead (concat gs)) = (v', Ok (ROTry rs)).
Proof.
  induction gs as [|g gs IH]; intros v I L G; [now destruct G|].
  pose proof (rg_all _ G) as A. destruct (rg_cons _ _ G) as (R & [->|G']).
  - cbn [try_read_groups concat]. rewrite app_nil_r. rewrite (rv_step_char ev v (RTryRead g)) by assumption. cbn zeta.
    cbn [obind]. do 2 eexists. split; [reflexivity|]. now rewrite app_nil_r.
  - destruct (try_read_app ev v g (concat gs)) as (v1 & ra & v2 & rb & E1 & P1 & D1 & E2 & E3); try assumption.
    { exact (rg_all _ G'). }
    destruct (IH v1) as (v' & rs & T & S); [assumption|congruence|assumption|].
    rewrite E2 in S. injection S as -> ->. exists v', (ra ++ rs). cbn [try_read_groups concat]. rewrite E1, T. cbn [obind].
    split; [reflexivity|exact E3].
Qed.

Lemma range_is_reads ev v t k : rv_pos v <= lenN (rv_data v) -> lenN (rv_data v) < size_mod -> (0 < k)%nat ->
  rop_ok (RReadRange t k) -> rv_step ev v (RReadRange t k) = rv_step ev v (RRead (repeat t k)).
Proof.
  intros I L K O. assert (S : types_size (repeat t k) = N.of_nat k * value_size t).
  { clear. induction k as [|k IH]; [reflexivity|]. cbn [repeat]. rewrite types_size_cons, IH. lia. }
  assert (O' : rop_ok (RRead (repeat t k))).
  { destruct O as [O1 O2]. cbn [rop_ok]. rewrite S. split; [destruct k; [lia|discriminate]|]. split; [|exact O2].
    apply Forall_forall. intros x X. now rewrite (repeat_spec _ _ _ X). }
  rewrite !rv_step_char by assumption. cbn zeta. rewrite S. reflexivity.
Qed.

(** ** Writes *)
Lemma args_size_app a b : args_size (a ++ b) = args_size a + args_size b.
Proof. unfold args_size, sum. rewrite map_app. induction (map arg_bytes a) as [|x l IH]; cbn [app fold_right]; lia. Qed.

Lemma wg_cons g gs : write_groups_ok (g :: gs) -> wop_ok (WWrite g) /\ (gs = [] \/ write_groups_ok gs).
Proof.
  intros (_ & F & V & S). cbn [concat] in V, S. apply Forall_app in V. destruct V as [V1 V2]. rewrite args_size_app in S.
  split.
  - cbn [wop_ok]. unfold ptr_max. split; [exact (Forall_inv F)|]. split; [exact V1|lia].
  - destruct gs; [now left|right]. split; [discriminate|]. split; [exact (Forall_inv_tail F)|]. split; [exact V2|lia].
Qed.
Lemma wg_all gs : write_groups_ok gs -> wop_ok (WWrite (concat gs)).
Proof.
  intros (NE & F & V & S). cbn [wop_ok]. unfold ptr_max. split; [|tauto].
  destruct gs as [|g gs]; [congruence|]. apply Forall_inv in F. destruct g; [congruence|discriminate].
Qed.

Lemma write_grouped ev gs : forall v, wv_pos v <= lenN (wv_data v) -> lenN (wv_data v) < ptr_max -> write_groups_ok gs ->
  match write_groups ev v gs with
  | (v', Ok n) => wv_step ev v (WWrite (concat gs)) = (v', Ok (WOCount n))
  | (v', o) => o = Throw out_of_range /\ wv_step ev v (WWrite (concat gs)) = (v, Throw out_of_range) /\
               lenN (wv_data v') = lenN (wv_data v) /\ wv_pos v <= wv_pos v' <= lenN (wv_data v)
  end.
Proof.
  induction gs as [|g gs IH]; intros v I L G; [now destruct G|].
  pose proof (wg_all _ G) as A. destruct (wg_cons _ _ G) as (R & G').
  rewrite (wv_throwing_char ev v (WWrite (concat _))) by (assumption || exact Logic.I). cbn [wop_args].
  cbn [write_groups]. rewrite wv_throwing_char by (assumption || exact Logic.I). cbn [wop_args concat]. rewrite args_size_app.
  destruct (N.ltb_spec (lenN (wv_data v)) (wv_pos v + args_size g)) as [B|B].
  - rewrite (proj2 (N.ltb_lt _ _)) by lia. repeat split; lia.
  - assert (Lg : lenN (enc_args ev g) = args_size g) by (apply lenN_enc_args; apply R).
    assert (Ls : lenN (splice (wv_data v) (wv_pos v) (enc_args ev g)) = lenN (wv_data v)) by (apply lenN_splice; lia).
    destruct G' as [->|G'].
    + cbn [write_groups obind concat]. change (args_size []) with 0. rewrite !N.add_0_r.
      rewrite (proj2 (N.ltb_ge _ _)) by lia. now rewrite !app_nil_r.
    + specialize (IH (WView (splice (wv_data v) (wv_pos v) (enc_args ev g)) (wv_pos v + args_size g))).
      cbn [wv_data wv_pos] in IH. rewrite Ls in IH. specialize (IH B L G').
      rewrite (wv_throwing_char ev (WView _ _)) in IH;
        [|unfold wv_inv; cbn [wv_data wv_pos]; lia|cbn [wv_data]; lia|now apply wg_all|exact Logic.I].
      cbn [wop_args wv_data wv_pos] in IH. rewrite Ls, <- N.add_assoc in IH.
      destruct (write_groups ev _ gs) as [v' [n|e| | |]]; cbn [obind].
      * destruct (N.ltb_spec (lenN (wv_data v)) (wv_pos v + (args_size g + args_size (concat gs)))) as [C|C]; [discriminate|].
        injection IH as <- <-. f_equal. f_equal.
        rewrite enc_args_app. rewrite <- Lg. rewrite splice_splice; [reflexivity|].
        rewrite Lg, lenN_enc_args by apply (wg_all _ G'). lia.
      * destruct IH as (E & S & D & P). injection E as ->.
        destruct (N.ltb_spec (lenN (wv_data v)) (wv_pos v + (args_size g + args_size (concat gs)))); [|discriminate].
        repeat split; try assumption; lia.
      * destruct IH as [IH _]; discriminate.
      * destruct IH as [IH _]; discriminate.
      * destruct IH as [IH _]; discriminate.
Qed.

Lemma fit_prefix_app a b room :
  fit_prefix (a ++ b) room = if args_size a <=? room then a ++ fit_prefix b (room - args_size a) else fit_prefix a room.
Proof.
  revert room. induction a as [|t a IH]; intros room.
  - change (args_size []) with 0. cbn [app]. rewrite (proj2 (N.leb_le _ _)) by lia. now rewrite N.sub_0_r.
  - change (args_size (t :: a)) with (arg_bytes t + args_size a). cbn [app fit_prefix]. rewrite IH.
    destruct (N.leb_spec (arg_bytes t) room).
    + destruct (N.leb_spec (args_size a) (room - arg_bytes t)).
      * rewrite (proj2 (N.leb_le _ _)) by lia. do 3 f_equal. lia.
      * rewrite (proj2 (N.leb_gt _ _)) by lia. reflexivity.
    + rewrite (proj2 (N.leb_gt _ _)) by lia. reflexivity.
Qed.
Lemma fit_prefix_all a room : args_size a <= room -> fit_prefix a room = a.
Proof.
  intros H. rewrite <- (app_nil_r a) at 1. rewrite fit_prefix_app, (proj2 (N.leb_le _ _)) by lia. cbn [fit_prefix]. apply app_nil_r.
Qed.

Lemma try_write_grouped ev gs : forall v, wv_pos v <= lenN (wv_data v) -> lenN (wv_data v) < ptr_max -> write_groups_ok gs ->
  exists v' r, try_write_groups ev v gs = (v', Ok r) /\
    wv_step ev v (WTryWrite (concat gs)) =
      (WView (wv_data v') (match r with RVal _ => wv_pos v' | RErr _ => wv_pos v end), Ok (WOTry r)).
Proof.
  induction gs as [|g gs IH]; intros v I L G; [now destruct G|].
  destruct (wg_all _ G) as (A1 & A2 & A3). destruct (wg_cons _ _ G) as ((R1 & R2 & R3) & G').
  rewrite (wv_trywrite_char ev v (concat _)) by assumption. cbn zeta.
  cbn [try_write_groups]. rewrite wv_trywrite_char by assumption. cbn zeta. cbn [concat]. rewrite args_size_app, fit_prefix_app.
  set (room := lenN (wv_data v) - wv_pos v).
  destruct (N.ltb_spec (lenN (wv_data v)) (wv_pos v + args_size g)) as [B|B].
  - do 2 eexists. split; [reflexivity|]. rewrite (proj2 (N.ltb_lt _ _)) by lia.
    rewrite (proj2 (N.leb_gt _ _)) by (unfold room; lia). reflexivity.
  - assert (Lg : lenN (enc_args ev g) = args_size g) by (now apply lenN_enc_args).
    assert (Ls : lenN (splice (wv_data v) (wv_pos v) (enc_args ev g)) = lenN (wv_data v)) by (apply lenN_splice; lia).
    rewrite (proj2 (N.leb_le _ _)) by (unfold room; lia). rewrite fit_prefix_all by (unfold room; lia).
    destruct G' as [->|G'].
    + cbn [try_write_groups obind concat fit_prefix]. change (args_size []) with 0. rewrite !N.add_0_r.
      do 2 eexists. split; [reflexivity|]. rewrite (proj2 (N.ltb_ge _ _)) by lia. now rewrite !app_nil_r.
    + destruct (IH (WView (splice (wv_data v) (wv_pos v) (enc_args ev g)) (wv_pos v + args_size g))) as (v' & r & T & S);
        cbn [wv_data wv_pos]; [lia|lia|assumption|].
      destruct (wg_all _ G') as (B1 & B2 & B3).
      rewrite wv_trywrite_char in S; [|unfold wv_inv; cbn [wv_data wv_pos]; lia|cbn [wv_data]; lia|assumption..].
      cbn zeta in S. cbn [wv_data wv_pos] in S. rewrite Ls, <- N.add_assoc in S.
      replace (lenN (wv_data v) - (wv_pos v + args_size g)) with (room - args_size g) in S by (unfold room; lia).
      assert (SS : splice (splice (wv_data v) (wv_pos v) (enc_args ev g)) (wv_pos v + args_size g) (enc_args ev (fit_prefix (concat gs) (room - args_size g)))
        = splice (wv_data v) (wv_pos v) (enc_args ev (g ++ fit_prefix (concat gs) (room - args_size g)))).
      { rewrite enc_args_app, <- Lg. apply splice_splice.
        rewrite Lg, lenN_enc_args by (now apply fit_prefix_ok). pose proof (fit_prefix_size (concat gs) (room - args_size g)). unfold room in *. lia. }
      rewrite SS in S.
      rewrite T. cbn [obind]. do 2 eexists. split; [reflexivity|].
      destruct (N.ltb_spec (lenN (wv_data v)) (wv_pos v + (args_size g + args_size (concat gs)))) as [C|C].
      * injection S as S1 S2 <-. now rewrite S1.
      * injection S as S1 S2 <-. now rewrite S1, <- S2.
Qed.

(** ** Functions with a position *)
Lemma write_at_chain ev a b pos buf : Forall arg_ok a -> Forall arg_ok b -> pos < size_mod -> lenN buf < size_mod ->
  args_size (a ++ b) < size_mod ->
  match write_at ev a pos buf with
  | (buf1, Ok q) =>
      match write_at ev b q buf1 with
      | (buf2, Ok r) => write_at ev (a ++ b) pos buf = (buf2, Ok r)
      | (_, o) => write_at ev (a ++ b) pos buf = (buf, o)
      end
  | (_, _) => exists e, write_at ev (a ++ b) pos buf = (buf, Throw e)
  end.
Proof.
  intros A B P L. rewrite args_size_app. intros S.
  rewrite (write_at_char ev (a ++ b)) by (try assumption; try (rewrite args_size_app; assumption); now apply Forall_app).
  rewrite args_size_app. rewrite write_at_char by (assumption || lia).
  destruct (N.leb_spec size_mod (pos + args_size a)); [rewrite (proj2 (N.leb_le _ _)) by lia; eauto|].
  destruct (N.ltb_spec (lenN buf) (pos + args_size a)).
  { destruct (size_mod <=? pos + (args_size a + args_size b)); [eauto|]. rewrite (proj2 (N.ltb_lt _ _)) by lia. eauto. }
  assert (La : lenN (enc_args ev a) = args_size a) by (now apply lenN_enc_args).
  assert (Lb : lenN (enc_args ev b) = args_size b) by (now apply lenN_enc_args).
  rewrite write_at_char; try assumption; try (rewrite lenN_splice by lia; lia); try lia.
  rewrite lenN_splice by lia. rewrite <- N.add_assoc.
  destruct (N.leb_spec size_mod (pos + (args_size a + args_size b))); [reflexivity|].
  destruct (N.ltb_spec (lenN buf) (pos + (args_size a + args_size b))); [reflexivity|].
  rewrite enc_args_app, <- La. rewrite splice_splice by lia. reflexivity.
Qed.

Lemma read_at_chain ev a b pos buf : pos < size_mod -> lenN buf < size_mod -> types_size (a ++ b) < size_mod ->
  match read_at ev a pos buf with
  | Ok va =>
      match read_at ev b (pos + types_size a) buf with
      | Ok vb => read_at ev (a ++ b) pos buf = Ok (va ++ vb)
      | o => read_at ev (a ++ b) pos buf = o
      end
  | _ => exists e, read_at ev (a ++ b) pos buf = Throw e
  end.
Proof.
  intros P L S. rewrite types_size_app in S.
  rewrite (read_at_char ev (a ++ b)) by (try assumption; rewrite types_size_app; assumption).
  rewrite types_size_app. rewrite read_at_char by (assumption || lia).
  destruct (N.leb_spec size_mod (pos + types_size a)); [rewrite (proj2 (N.leb_le _ _)) by lia; eauto|].
  destruct (N.ltb_spec (lenN buf) (pos + types_size a)).
  { destruct (size_mod <=? pos + (types_size a + types_size b)); [eauto|]. rewrite (proj2 (N.ltb_lt _ _)) by lia. eauto. }
  rewrite read_at_char by (assumption || lia). rewrite <- N.add_assoc.
  destruct (N.leb_spec size_mod (pos + (types_size a + types_size b))); [reflexivity|].
  destruct (N.ltb_spec (lenN buf) (pos + (types_size a + types_size b))); [reflexivity|].
  f_equal. rewrite decode_all_app by (rewrite lenN_dropN; lia). rewrite dropN_dropN. do 3 f_equal. lia.
Qed.
