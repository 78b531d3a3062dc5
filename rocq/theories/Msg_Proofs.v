(** Proofs about messages with their length in front. *)
From Coq Require Import List Lia NArith. Import ListNotations.
From Verif Require Import Base BaseFacts Io_Model Io_Spec Io_Proofs IoRead_Proofs IoView_Model IoView_Spec IoView_Proofs IoView_PropLemmas IoPort_Spec IoPort_Proofs Msg_Spec.
Local Open Scope N_scope.

Definition psz (P : protocol) : N := N.of_nat (pr_bytes P).
Definition esz (P : protocol) : N := N.of_nat (scalar_bytes (pr_elem P)).
Definition enc_msg (ev : env) (P : protocol) (m : message) : list byte := enc_args ev (message_args P m).
Definition enc_msgs (ev : env) (P : protocol) (ms : list message) : list byte := concat (map (enc_msg ev P) ms).

Lemma psz_eq P : value_size (length_type P) = psz P. Proof. reflexivity. Qed.
Lemma esz_eq P : value_size (TPlain (pr_elem P)) = esz P. Proof. reflexivity. Qed.
Lemma ptype P : types_size [length_type P] = psz P.
Proof. rewrite types_size_cons. change (types_size []) with 0. rewrite N.add_0_r. apply psz_eq. Qed.
Lemma pow_Z n : Z.of_N (256 ^ N.of_nat n) = (2 ^ (8 * Z.of_nat n))%Z.
Proof. rewrite N2Z.inj_pow, nat_N_Z. change (Z.of_N 256) with 256%Z. apply pow256. Qed.

Lemma args_ok P m : protocol_ok P -> message_ok P m -> Forall arg_ok (message_args P m).
Proof.
  intros (P1 & P2 & P3) (M1 & M2). constructor; [|constructor; [|constructor]].
  - cbn [arg_ok]. unfold typed, length_type. cbn [scalar_of value_ok]. split; [exact P1|]. cbn [int_ok].
    rewrite <- pow_Z. lia.
  - cbn [arg_ok]. now split.
Qed.
Lemma enc_msg_eq ev P m : enc_msg ev P m =
  bytes_of_value ev (length_type P) (VInt (Z.of_N (lenN m))) ++ enc_arg ev (ARange (pr_elem P) m).
Proof. unfold enc_msg, message_args, enc_args. cbn [map concat enc_arg]. now rewrite app_nil_r. Qed.
Lemma enc_len ev P m : protocol_ok P -> message_ok P m ->
  lenN (bytes_of_value ev (length_type P) (VInt (Z.of_N (lenN m)))) = psz P /\
  lenN (enc_arg ev (ARange (pr_elem P) m)) = lenN m * esz P /\ lenN (enc_msg ev P m) = psz P + lenN m * esz P.
Proof.
  intros PO MO. pose proof (args_ok P m PO MO) as A. rewrite enc_msg_eq, lenN_app.
  pose proof (lenN_bytes_of_value ev (length_type P) _ (Forall_inv A)) as L1. rewrite psz_eq in L1.
  pose proof (lenN_enc_arg ev _ (Forall_inv (Forall_inv_tail A))) as L2. cbn [arg_bytes] in L2.
  rewrite L1, L2. unfold esz. repeat split; lia.
Qed.

Lemma enc_head ev P m n more more' : protocol_ok P -> message_ok P m -> n < 256 ^ psz P ->
  enc_msg ev P m ++ more = bytes_of_value ev (length_type P) (VInt (Z.of_N n)) ++ more' -> lenN m = n.
Proof.
  intros PO MO Hn E. rewrite enc_msg_eq, <- app_assoc in E.
  destruct (enc_len ev P m PO MO) as (L1 & _ & _).
  assert (T2 : typed (length_type P) (VInt (Z.of_N n))).
  { unfold typed, length_type. cbn [scalar_of value_ok]. split; [apply PO|]. cbn [int_ok]. rewrite <- pow_Z. unfold psz in Hn. lia. }
  pose proof (lenN_bytes_of_value ev (length_type P) _ T2) as L2. rewrite psz_eq in L2.
  assert (E2 := f_equal (takeN (psz P)) E). rewrite !takeN_app_exact in E2 by lia.
  pose proof (Forall_inv (args_ok P m PO MO)) as T1. cbn [arg_ok] in T1.
  assert (E3 := f_equal (value_of_bytes ev (length_type P)) E2). rewrite !value_roundtrip in E3 by assumption.
  injection E3 as E3. lia.
Qed.

(** what one round finds *)
Lemma look ev P rest : protocol_ok P -> psz P <= lenN rest ->
  exists n, n < 256 ^ psz P /\
    value_of_bytes ev (length_type P) (takeN (psz P) rest) = VInt (Z.of_N n) /\
    rest = bytes_of_value ev (length_type P) (VInt (Z.of_N n)) ++ dropN (psz P) rest /\
    lenN (bytes_of_value ev (length_type P) (VInt (Z.of_N n))) = psz P.
Proof.
  intros PO L. set (h := takeN (psz P) rest).
  assert (Lh : length h = scalar_bytes (scalar_of (length_type P))).
  { assert (lenN h = psz P) by (unfold h; rewrite lenN_takeN; lia). unfold lenN, psz in *. cbn. lia. }
  assert (OK : vtype_ok (length_type P)) by (unfold vtype_ok; cbn; apply PO).
  pose proof (value_of_bytes_typed ev (length_type P) h OK Lh) as T. pose proof (bytes_roundtrip ev (length_type P) h OK Lh) as R.
  destruct (value_of_bytes ev (length_type P) h) as [z|?] eqn:V; [|contradiction T].
  unfold typed, length_type in T. cbn [scalar_of value_ok int_ok] in T. destruct T as [_ T].
  exists (Z.to_N z). rewrite Z2N.id by lia. split; [|split; [reflexivity|split]].
  - rewrite <- pow_Z in T. unfold psz. lia.
  - rewrite R. unfold h. symmetry. apply takeN_dropN.
  - rewrite R. unfold h. rewrite lenN_takeN. lia.
Qed.

Lemma decode_back ev s k : (0 < scalar_bytes s)%nat -> forall bs, lenN bs = N.of_nat k * N.of_nat (scalar_bytes s) ->
  Forall (value_ok s) (decode_range ev (TPlain s) k bs) /\ enc_arg ev (ARange s (decode_range ev (TPlain s) k bs)) = bs.
Proof.
  intros S0. unfold decode_range. induction k as [|k IH]; intros bs L.
  - cbn [repeat decode_all]. split; [constructor|]. cbn [enc_arg map concat]. destruct bs; [reflexivity|]. rewrite lenN_cons in L. lia.
  - cbn [repeat decode_all]. change (value_size (TPlain s)) with (N.of_nat (scalar_bytes s)).
    set (e := N.of_nat (scalar_bytes s)) in *.
    assert (Lt : lenN (takeN e bs) = e) by (rewrite lenN_takeN; lia).
    assert (Lh : length (takeN e bs) = scalar_bytes s) by (unfold lenN, e in *; lia).
    destruct (IH (dropN e bs)) as [I1 I2]; [rewrite lenN_dropN; lia|].
    split.
    + constructor; [|exact I1]. now apply (value_of_bytes_typed ev (TPlain s)).
    + cbn [enc_arg map concat] in *. rewrite I2. rewrite (bytes_roundtrip ev (TPlain s)); [apply takeN_dropN|exact S0|exact Lh].
Qed.

Lemma decode_range_take ev s k bs n : n = N.of_nat k * N.of_nat (scalar_bytes s) -> n <= lenN bs ->
  decode_range ev (TPlain s) k bs = decode_range ev (TPlain s) k (takeN n bs).
Proof.
  intros -> L. unfold decode_range. revert bs L. induction k as [|k IH]; intros bs L; [reflexivity|].
  cbn [repeat decode_all]. change (value_size (TPlain s)) with (N.of_nat (scalar_bytes s)). set (e := N.of_nat (scalar_bytes s)) in *.
  f_equal.
  - f_equal. rewrite takeN_takeN. f_equal. lia.
  - rewrite IH by (rewrite lenN_dropN; lia). f_equal. rewrite takeN_dropN_comm. f_equal. f_equal. lia.
Qed.

Definition nothing (ev : env) (P : protocol) (rest : list byte) : Prop :=
  forall m more, message_ok P m -> rest <> enc_msg ev P m ++ more.

(** how both receivers stop when [rest] is left *)
Definition stop_of (P : protocol) (rest : list byte) : stopped := if lenN rest <? psz P then no_length else cut_off.
Definition stop_pos (P : protocol) (len : N) (rest : list byte) : N :=
  len - lenN rest + (if lenN rest <? psz P then 0 else psz P).

Lemma fit_one P k : fit_count [length_type P] k = if k <? psz P then 0%nat else 1%nat.
Proof. cbn [fit_count]. rewrite psz_eq. destruct (N.ltb_spec k (psz P)), (N.leb_spec (psz P) k); try lia; reflexivity. Qed.

Lemma receive_char ev P buf : protocol_ok P -> lenN buf < ptr_max -> forall rounds p, p <= lenN buf ->
  (N.to_nat (lenN buf - p) < rounds)%nat ->
  exists ms rest, dropN p buf = enc_msgs ev P ms ++ rest /\ Forall (message_ok P) ms /\ nothing ev P rest /\
    receive ev P rounds (RView buf p) = (ms, stop_of P rest, RView buf (stop_pos P (lenN buf) rest)) /\
    try_receive ev P rounds (RView buf p) = (ms, stop_of P rest, RView buf (lenN buf)).
Proof.
  intros PO LB. pose proof ptr_max_lt as PM.
  assert (R1 : rop_ok (RRead [length_type P])).
  { cbn [rop_ok]. rewrite ptype. split; [discriminate|]. split; [constructor; [apply PO|constructor]|].
    destruct PO as (_ & _ & P3). unfold psz. lia. }
  assert (R2 : forall n, n < 256 ^ psz P -> rop_ok (RReadRange (TPlain (pr_elem P)) (Z.to_nat (Z.of_N n)))).
  { intros n Hn. cbn [rop_ok]. split; [apply PO|]. rewrite esz_eq. destruct PO as (_ & _ & P3).
    replace (N.of_nat (Z.to_nat (Z.of_N n))) with n by lia. unfold esz, psz in *. nia. }
  assert (PP : 0 < psz P) by (destruct PO as (P1 & _); unfold psz; lia).
  induction rounds as [|rounds IH]; intros p Hp HR; [lia|].
  assert (LR : lenN (dropN p buf) = lenN buf - p) by apply lenN_dropN.
  cbn [receive try_receive].
  rewrite !rv_step_char; try assumption; try (unfold rv_inv; cbn [rv_data rv_pos]; lia); try (cbn [rv_data]; lia).
  cbn zeta. cbn [rv_data rv_pos]. rewrite !ptype. unfold rv_rest. cbn [rv_data rv_pos]. rewrite !fit_one.
  destruct (N.ltb_spec (lenN buf) (p + psz P)) as [A|A].
  - (* no length *)
    exists [], (dropN p buf). split; [reflexivity|]. split; [constructor|].
    unfold stop_of, stop_pos. rewrite LR.
    rewrite (proj2 (N.ltb_lt (lenN buf - p) (psz P))) by lia. split.
    + intros m more MO E. destruct (enc_len ev P m PO MO) as (_ & _ & L). rewrite E, lenN_app in LR. lia.
    + split; [do 2 f_equal; lia|]. cbn [firstn decode_all map app length Nat.sub repeat]. do 2 f_equal. lia.
  - rewrite (proj2 (N.ltb_ge (lenN buf - p) (psz P))) by lia.
    cbn [firstn decode_all map app length Nat.sub repeat].
    destruct (look ev P (dropN p buf) PO) as (n & Hn & V & E & Lh); [lia|].
    rewrite psz_eq, V. rewrite N.min_r by lia.
    assert (KN : N.of_nat (Z.to_nat (Z.of_N n)) = n) by lia.
    rewrite !rv_step_char; try apply R2; try assumption; try (unfold rv_inv; cbn [rv_data rv_pos]; lia); try (cbn [rv_data]; lia).
    cbn zeta. cbn [rv_data rv_pos]. unfold rv_rest. cbn [rv_data rv_pos]. rewrite esz_eq, KN.
    rewrite dropN_dropN in E.
    destruct (N.ltb_spec (lenN buf) (p + psz P + n * esz P)) as [B|B].
    + (* cut off *)
      exists [], (dropN p buf). split; [reflexivity|]. split; [constructor|].
      unfold stop_of, stop_pos. rewrite LR. rewrite (proj2 (N.ltb_ge (lenN buf - p) (psz P))) by lia. split.
      * intros m more MO Em. destruct (enc_len ev P m PO MO) as (_ & _ & L).
        pose proof (enc_head ev P m n more (dropN (psz P + p) buf) PO MO Hn) as Hm. rewrite <- Em in Hm. specialize (Hm E).
        rewrite Em, lenN_app, L, Hm in LR. lia.
      * split; [do 2 f_equal; lia|reflexivity].
    + (* a message *)
      set (q := p + psz P) in *. replace (psz P + p) with q in E by (unfold q; lia).
      set (m := decode_range ev (TPlain (pr_elem P)) (Z.to_nat (Z.of_N n)) (dropN q buf)).
      assert (Lq : lenN (dropN q buf) = lenN buf - q) by apply lenN_dropN.
      destruct (decode_back ev (pr_elem P) (Z.to_nat (Z.of_N n)) (proj1 (proj2 PO)) (takeN (n * esz P) (dropN q buf))) as [D1 D2].
      { rewrite lenN_takeN, KN. fold (esz P). lia. }
      rewrite <- (decode_range_take ev (pr_elem P) (Z.to_nat (Z.of_N n)) (dropN q buf) (n * esz P)) in D1, D2
        by (rewrite ?KN; fold (esz P); lia || reflexivity).
      fold m in D1, D2. assert (Lm : lenN m = n) by (unfold m; rewrite lenN_decode_range; exact KN).
      assert (MO : message_ok P m) by (split; [exact D1|rewrite Lm; exact Hn]).
      assert (Em : dropN p buf = enc_msg ev P m ++ dropN (q + n * esz P) buf).
      { rewrite enc_msg_eq, Lm, D2, <- app_assoc. replace (q + n * esz P) with (n * esz P + q) by lia.
        rewrite <- dropN_dropN, takeN_dropN. exact E. }
      destruct (IH (q + n * esz P)) as (ms & rest & E1 & F & NO & RC & TR); [lia|lia|].
      exists (m :: ms), rest. split; [|split; [now constructor|split; [exact NO|]]].
      * unfold enc_msgs. cbn [map concat]. rewrite <- app_assoc. fold (enc_msgs ev P ms). rewrite <- E1. exact Em.
      * rewrite RC, TR. split; reflexivity.
Qed.

(** in the words of the specification *)
Lemma enc_args_msgs ev P ms : enc_args ev (concat (map (message_args P) ms)) = enc_msgs ev P ms.
Proof.
  induction ms as [|m ms IH]; [reflexivity|]. cbn [map concat]. unfold enc_args in *. rewrite map_app, concat_app, IH. reflexivity.
Qed.
Lemma all_args_ok P ms : protocol_ok P -> Forall (message_ok P) ms -> Forall arg_ok (concat (map (message_args P) ms)).
Proof.
  intros PO. induction 1 as [|m ms M _ IH]; [constructor|]. cbn [map concat]. apply Forall_app. split; [now apply args_ok|exact IH].
Qed.
Lemma encoding_iff ev P ms bs : protocol_ok P -> Forall (message_ok P) ms ->
  (messages_encoding ev P ms bs <-> bs = enc_msgs ev P ms).
Proof.
  intros PO F. pose proof (all_args_ok P ms PO F) as A. unfold messages_encoding. rewrite <- enc_args_msgs. split.
  - now apply args_encoding_eq.
  - intros ->. now apply args_encoding_enc.
Qed.
Lemma nothing_no ev P rest : protocol_ok P -> nothing ev P rest -> no_message ev P rest.
Proof.
  intros PO H m bs more M E R. apply encoding_iff in E; [|exact PO|constructor; [exact M|constructor]].
  apply (H m more M). rewrite R, E. unfold enc_msgs. cbn [map concat]. now rewrite app_nil_r.
Qed.
Lemma msgs_len ev P ms : protocol_ok P -> Forall (message_ok P) ms -> lenN (enc_msgs ev P ms) = messages_size P ms.
Proof.
  intros PO. induction 1 as [|m ms M _ IH]; [reflexivity|]. unfold enc_msgs, messages_size in *. cbn [map concat sum fold_right].
  rewrite lenN_app, IH. destruct (enc_len ev P m PO M) as (_ & _ & ->). reflexivity.
Qed.

Lemma any_input ev P buf rounds : protocol_ok P -> lenN buf < ptr_max -> (length buf < rounds)%nat ->
  exists ms front rest s pos,
    receive ev P rounds (rv_init buf) = (ms, s, RView buf pos) /\
    try_receive ev P rounds (rv_init buf) = (ms, s, RView buf (lenN buf)) /\
    buf = front ++ rest /\ Forall (message_ok P) ms /\ messages_encoding ev P ms front /\ no_message ev P rest /\
    ((s = no_length /\ lenN rest < N.of_nat (pr_bytes P) /\ pos = lenN front) \/
     (s = cut_off /\ N.of_nat (pr_bytes P) <= lenN rest /\ pos = lenN front + N.of_nat (pr_bytes P))).
Proof.
  intros PO LB HR. destruct (receive_char ev P buf PO LB rounds 0) as (ms & rest & E & F & NO & RC & TR); [lia|unfold lenN; lia|].
  rewrite dropN_0 in E. exists ms, (enc_msgs ev P ms), rest, (stop_of P rest), (stop_pos P (lenN buf) rest).
  split; [exact RC|]. split; [exact TR|]. split; [exact E|]. split; [exact F|].
  split; [now apply encoding_iff|]. split; [now apply nothing_no|].
  assert (L : lenN buf = lenN (enc_msgs ev P ms) + lenN rest) by (rewrite E at 1; apply lenN_app).
  unfold stop_of, stop_pos. fold (psz P). destruct (N.ltb_spec (lenN rest) (psz P)); [left|right]; repeat split; lia.
Qed.

(** messages are a prefix code *)
Lemma same_message ev P m m' x y : protocol_ok P -> message_ok P m -> message_ok P m' ->
  enc_msg ev P m ++ x = enc_msg ev P m' ++ y -> m = m' /\ x = y.
Proof.
  intros PO M M' E. assert (Lm : lenN m = lenN m').
  { pose proof M' as [_ B]. fold (psz P) in B. apply (enc_head ev P m (lenN m') x (enc_arg ev (ARange (pr_elem P) m') ++ y) PO M B).
    rewrite E, enc_msg_eq, <- app_assoc. reflexivity. }
  destruct (enc_len ev P m PO M) as (A1 & A2 & A3). destruct (enc_len ev P m' PO M') as (B1 & B2 & B3).
  rewrite Lm in A3. assert (E1 := f_equal (takeN (lenN (enc_msg ev P m))) E). assert (E2 := f_equal (dropN (lenN (enc_msg ev P m))) E).
  rewrite takeN_app_exact in E1 by reflexivity. rewrite takeN_app_exact in E1 by lia.
  rewrite dropN_app_exact in E2 by reflexivity. rewrite dropN_app_exact in E2 by lia. split; [|exact E2].
  rewrite !enc_msg_eq, Lm in E1. apply app_inv_head in E1.
  pose proof (decode_range_enc ev (pr_elem P) m (proj1 M) []) as D. pose proof (decode_range_enc ev (pr_elem P) m' (proj1 M') []) as D'.
  rewrite E1 in D. assert (Ll : length m = length m') by (unfold lenN in Lm; lia). rewrite Ll in D. congruence.
Qed.

Lemma prefix_parse ev P ms : protocol_ok P -> Forall (message_ok P) ms -> forall b c ms' rest,
  enc_msgs ev P ms = b ++ c -> b = enc_msgs ev P ms' ++ rest -> Forall (message_ok P) ms' -> nothing ev P rest ->
  exists rest', whole_messages P ms (lenN b) ms' rest'.
Proof.
  intros PO. induction 1 as [|m ms M F IH]; intros b c ms' rest E1 E2 F' NO.
  - destruct ms' as [|m' ms'].
    + exists []. repeat split. cbn. lia.
    + exfalso. destruct (enc_len ev P m' PO (Forall_inv F')) as (_ & _ & L). assert (L0 := f_equal lenN E1).
      rewrite E2 in L0. unfold enc_msgs in L0. cbn [map concat] in L0. rewrite !lenN_app in L0. rewrite L in L0.
      change (lenN (@nil byte)) with 0 in L0. destruct PO as (P1 & _). unfold psz in L0. lia.
  - destruct (enc_len ev P m PO M) as (_ & _ & L). unfold enc_msgs in E1. cbn [map concat] in E1. fold (enc_msgs ev P ms) in E1.
    destruct ms' as [|m' ms'].
    + exists (m :: ms). split; [reflexivity|]. split; [cbn; lia|].
      cbn [app]. unfold messages_size. cbn [map sum fold_right]. rewrite N.add_0_r. fold (esz P) (psz P).
      destruct (N.lt_ge_cases (lenN b) (psz P + lenN m * esz P)) as [K|K]; [exact K|]. exfalso.
      cbn in E2. subst rest. apply (NO m (dropN (lenN (enc_msg ev P m)) b) M).
      assert (E3 := f_equal (takeN (lenN (enc_msg ev P m))) E1). rewrite takeN_app_exact in E3 by reflexivity.
      rewrite takeN_app in E3. replace (lenN (enc_msg ev P m) - lenN b) with 0 in E3 by lia.
      rewrite takeN_0, app_nil_r in E3. rewrite E3 at 1. symmetry. apply takeN_dropN.
    + unfold enc_msgs in E2. cbn [map concat] in E2. rewrite <- app_assoc in E2. fold (enc_msgs ev P ms') in E2.
      rewrite E2, <- app_assoc in E1. destruct (same_message ev P m m' _ _ PO M (Forall_inv F') E1) as [<- E3].
      destruct (IH (enc_msgs ev P ms' ++ rest) c ms' rest E3 eq_refl (Forall_inv_tail F') NO) as (rest' & W1 & W2 & W3).
      exists rest'. split; [cbn [app]; now rewrite <- W1|].
      rewrite E2, lenN_app, L.
      unfold messages_size in *. cbn [map sum fold_right app]. fold (esz P) (psz P) in *.
      split; [unfold sum in *; lia|]. destruct rest' as [|m2 r2]; [exact Logic.I|].
      unfold sum in *. cbn [map app fold_right] in *. lia.
Qed.

(** sending *)
Lemma size_cons P m ms : messages_size P (m :: ms) = psz P + lenN m * esz P + messages_size P ms.
Proof. reflexivity. Qed.
Lemma msg_args_size P m : args_size (message_args P m) = psz P + lenN m * esz P.
Proof. unfold args_size, message_args, sum. cbn [map fold_right arg_bytes]. rewrite psz_eq. unfold esz. lia. Qed.

Lemma send_all ev P ms : protocol_ok P -> Forall (message_ok P) ms -> forall buf p, lenN buf < ptr_max ->
  p + messages_size P ms <= lenN buf ->
  wv_run ev (WView buf p) (map (send P) ms) =
    (WView (takeN p buf ++ enc_msgs ev P ms ++ dropN (p + messages_size P ms) buf) (p + messages_size P ms),
     map (fun m => Ok (WOCount (messages_size P [m]))) ms).
Proof.
  intros PO. induction 1 as [|m ms M F IH]; intros buf p LB LS.
  - cbn [map wv_run enc_msgs concat app]. change (messages_size P []) with 0. rewrite N.add_0_r. unfold enc_msgs. cbn [map concat app].
    now rewrite takeN_dropN.
  - rewrite size_cons in LS. cbn [map wv_run].
    assert (W : wop_ok (send P m)).
    { unfold send. cbn [wop_ok]. split; [discriminate|]. split; [now apply args_ok|]. rewrite msg_args_size.
      destruct PO as (_ & _ & P3), M as (_ & M2). unfold psz, esz in *. nia. }
    rewrite wv_throwing_char; [|unfold wv_inv; cbn [wv_data wv_pos]; lia|exact LB|exact W|exact Logic.I].
    unfold send at 1 2 3 4. cbn [wop_args wv_data wv_pos]. rewrite msg_args_size.
    rewrite (proj2 (N.ltb_ge _ _)) by lia. fold (enc_msg ev P m).
    destruct (enc_len ev P m PO M) as (_ & _ & L).
    rewrite IH; [|rewrite lenN_splice by lia; exact LB|rewrite lenN_splice by lia; lia].
    rewrite size_cons. f_equal; [|f_equal; do 2 f_equal; rewrite size_cons; change (messages_size P []) with 0; lia].
    f_equal; [|lia].
    unfold splice. rewrite L. unfold enc_msgs. cbn [map concat]. fold (enc_msgs ev P ms). rewrite <- !app_assoc.
    assert (T : lenN (takeN p buf) = p) by (rewrite lenN_takeN; lia).
    rewrite takeN_app, (takeN_all (p + (psz P + lenN m * esz P)) (takeN p buf)) by lia. rewrite T. rewrite <- app_assoc. f_equal.
    rewrite takeN_app_exact by lia. f_equal. f_equal.
    rewrite dropN_app, (dropN_all _ (takeN p buf)) by lia. rewrite T. cbn [app].
    rewrite dropN_app, (dropN_all _ (enc_msg ev P m)) by lia. cbn [app]. rewrite dropN_dropN. f_equal. lia.
Qed.

Lemma sent_received ev P ms buf n rounds : protocol_ok P -> Forall (message_ok P) ms -> lenN buf < ptr_max ->
  messages_size P ms <= lenN buf -> n <= messages_size P ms -> (N.to_nat n < rounds)%nat ->
  exists data, wv_run ev (wv_init buf) (map (send P) ms) =
      (WView data (messages_size P ms), map (fun m => Ok (WOCount (messages_size P [m]))) ms) /\
    lenN data = lenN buf /\ dropN (messages_size P ms) data = dropN (messages_size P ms) buf /\
    exists done rest s v v', whole_messages P ms n done rest /\
      receive ev P rounds (rv_init (takeN n data)) = (done, s, v) /\
      try_receive ev P rounds (rv_init (takeN n data)) = (done, s, v') /\
      (n = messages_size P ms -> rest = [] /\ s = no_length).
Proof.
  intros PO F LB LS Hn HR.
  pose proof (send_all ev P ms PO F buf 0 LB) as W. specialize (W LS). rewrite takeN_0, N.add_0_l in W. cbn [app] in W.
  eexists. split; [exact W|]. pose proof (msgs_len ev P ms PO F) as L.
  split; [rewrite lenN_app, L, lenN_dropN; lia|]. split; [now rewrite dropN_app_exact|].
  set (data := enc_msgs ev P ms ++ dropN (messages_size P ms) buf).
  assert (D : takeN n data = takeN n (enc_msgs ev P ms)).
  { unfold data. rewrite takeN_app. replace (n - lenN (enc_msgs ev P ms)) with 0 by lia. now rewrite takeN_0, app_nil_r. }
  assert (Ln : lenN (takeN n data) = n) by (rewrite D, lenN_takeN; lia).
  destruct (receive_char ev P (takeN n data) PO) with (rounds := rounds) (p := 0) as (ms' & rest & E & F' & NO & RC & TR); [lia|lia|lia|].
  rewrite dropN_0 in E.
  destruct (prefix_parse ev P ms PO F (takeN n data) (dropN n (enc_msgs ev P ms)) ms' rest) as (rest' & Wm); try assumption.
  { rewrite D. symmetry. apply takeN_dropN. }
  rewrite Ln in Wm. exists ms', rest'. do 3 eexists. split; [exact Wm|]. split; [exact RC|]. split; [exact TR|].
  intros En. destruct Wm as (W1 & W2 & W3).
  assert (R0 : rest' = []).
  { destruct rest' as [|x r]; [reflexivity|]. exfalso. rewrite En, W1 in W3. unfold messages_size in W3. rewrite !map_app in W3.
    assert (SA : forall a b, sum (a ++ b) = sum a + sum b).
    { clear. induction a as [|y a IH]; intros b; [reflexivity|]. unfold sum in *. cbn [app fold_right]. rewrite IH. lia. }
    rewrite !SA in W3. unfold sum in W3. cbn [map fold_right] in W3. lia. }
  split; [exact R0|]. rewrite R0, app_nil_r in W1. subst ms'.
  rewrite D, En, takeN_all in E by lia. rewrite <- (app_nil_r (enc_msgs ev P ms)) in E at 1. apply app_inv_head in E. subst rest.
  unfold stop_of. change (lenN (@nil byte)) with 0. destruct PO as (P1 & _). rewrite (proj2 (N.ltb_lt _ _)); [reflexivity|unfold psz; lia].
Qed.

(** ** Another machine *)
Lemma length_typed P m : message_ok P m -> protocol_ok P -> typed (length_type P) (VInt (Z.of_N (lenN m))).
Proof.
  intros [_ L] PO. unfold typed, length_type. cbn [scalar_of value_ok]. split; [apply PO|]. cbn [int_ok]. rewrite <- pow_Z. unfold psz in *. lia.
Qed.
Lemma enc_msgs_port ev1 ev2 P ms : configured_right ev1 -> configured_right ev2 -> portable (TPlain (pr_elem P)) ->
  protocol_ok P -> Forall (message_ok P) ms -> enc_msgs ev1 P ms = enc_msgs ev2 P ms.
Proof.
  intros A B T PO F. unfold enc_msgs. induction F as [|m ms M _ IH]; [reflexivity|].
  cbn [map concat]. rewrite IH. f_equal. rewrite !enc_msg_eq. f_equal.
  - apply portable_bytes; try assumption; [exact I|]. now apply length_typed.
  - cbn [enc_arg]. destruct M as [V _]. induction V as [|v vs Hv _ IHv]; [reflexivity|]. cbn [map concat]. rewrite IHv. f_equal.
    now apply portable_bytes.
Qed.
Lemma sent_elsewhere ev1 ev2 P ms buf n rounds : configured_right ev1 -> configured_right ev2 -> portable (TPlain (pr_elem P)) ->
  protocol_ok P -> Forall (message_ok P) ms -> lenN buf < ptr_max ->
  messages_size P ms <= lenN buf -> n <= messages_size P ms -> (N.to_nat n < rounds)%nat ->
  exists data, wv_run ev1 (wv_init buf) (map (send P) ms) =
      (WView data (messages_size P ms), map (fun m => Ok (WOCount (messages_size P [m]))) ms) /\
    exists done rest s v v', whole_messages P ms n done rest /\
      receive ev2 P rounds (rv_init (takeN n data)) = (done, s, v) /\
      try_receive ev2 P rounds (rv_init (takeN n data)) = (done, s, v') /\
      (n = messages_size P ms -> rest = [] /\ s = no_length).
Proof.
  intros A B T PO F LB LS Hn HR.
  destruct (sent_received ev2 P ms buf n rounds PO F LB LS Hn HR) as (data & W & _ & _ & R).
  exists data. split; [|exact R]. rewrite <- W.
  pose proof (send_all ev1 P ms PO F buf 0 LB LS) as W1. pose proof (send_all ev2 P ms PO F buf 0 LB LS) as W2.
  unfold wv_init. rewrite W1, W2. now rewrite (enc_msgs_port ev1 ev2).
Qed.
