(** Proofs about saving and loading collections. *)
From Coq Require Import List Lia NArith ZArith. Import ListNotations.
From Verif Require Import Base BaseFacts Io_Model Io_Spec Io_Proofs IoRead_Proofs IoView_Model IoView_Spec IoView_Proofs IoPort_Spec
  Msg_Proofs Log_Spec Log_Proofs Ident_Model Coll_Spec Ident_Proofs UuidMake_Proofs File_Model File_Spec File_Proofs CollSave_Spec.
Local Open Scope N_scope.

Lemma RI_holds b c l : RI c l -> holds b c l.
Proof.
  intros R. split; [exact (proj1 (iterate_ok b c l R))|]. split; [exact (proj1 (size_spec c l R))|].
  split; [intros id; exact (contains_spec c l id R)|]. split; [intros id; exact (at_id_ok c l id R)|].
  intros i. exact (at_index_ok c l i R).
Qed.

Lemma try_insert_all b c l it : RI c l ->
  exists r c', ic_try_insert b c it all_ok = (Ok r, c') /\ RI c' (if has_id (it_id it) l then l else l ++ [it]).
Proof.
  intros R. destruct (has_id (it_id it) l) eqn:E.
  - destruct (try_insert_ok b c l it all_ok (Ok false) l R) as (c' & A & B); [unfold spec_try_insert; cbn; now rewrite E|eauto].
  - destruct (try_insert_ok b c l it all_ok (Ok true) (l ++ [it]) R) as (c' & A & B); [unfold spec_try_insert; cbn; now rewrite E|eauto].
Qed.

(** ** The bytes of items *)
Definition enc_items (ev : env) (F : layout) (items : list item) : list byte := enc_args ev (concat (map (item_args F) items)).

Lemma int_typed e n z : (0 < n)%nat -> z < 256 ^ N.of_nat n -> typed (TEnc e n false) (VInt (Z.of_N z)).
Proof. intros P L. unfold typed. cbn [scalar_of value_ok]. split; [exact P|]. cbn [int_ok]. rewrite <- pow_Z. lia. Qed.

Lemma look_int ev e n bs : (0 < n)%nat -> lenN bs = N.of_nat n ->
  exists z, z < 256 ^ N.of_nat n /\ value_of_bytes ev (TEnc e n false) bs = VInt (Z.of_N z) /\
    bytes_of_value ev (TEnc e n false) (VInt (Z.of_N z)) = bs.
Proof.
  intros P L. assert (Lh : length bs = scalar_bytes (scalar_of (TEnc e n false))) by (unfold lenN in L; cbn; lia).
  assert (OK : vtype_ok (TEnc e n false)) by (unfold vtype_ok; cbn; lia).
  pose proof (value_of_bytes_typed ev _ bs OK Lh) as T. pose proof (bytes_roundtrip ev _ bs OK Lh) as R.
  destruct (value_of_bytes ev (TEnc e n false) bs) as [z|?] eqn:V; [|contradiction T].
  unfold typed in T. cbn [scalar_of value_ok int_ok] in T. destruct T as [_ T]. rewrite <- pow_Z in T.
  exists (Z.to_N z). rewrite Z2N.id by lia. split; [lia|]. split; [reflexivity|exact R].
Qed.

Lemma item_args_ok F it : layout_ok F -> item_fits F it -> Forall arg_ok (item_args F it).
Proof.
  intros (A & B & _) (C & D). unfold item_args. apply Forall_cons; [|apply Forall_cons; [|constructor]]; cbn [arg_ok]; apply int_typed; assumption.
Qed.
Lemma items_args_ok F items : layout_ok F -> Forall (item_fits F) items -> Forall arg_ok (concat (map (item_args F) items)).
Proof. intros O. induction 1 as [|it r I _ IH]; [constructor|]. cbn [map concat]. apply Forall_app. split; [now apply item_args_ok|exact IH]. Qed.
Lemma enc_items_cons ev F it r : enc_items ev F (it :: r) = enc_args ev (item_args F it) ++ enc_items ev F r.
Proof. unfold enc_items. cbn [map concat]. apply enc_args_app. Qed.
Lemma item_len ev F it : layout_ok F -> item_fits F it -> lenN (enc_args ev (item_args F it)) = item_size F.
Proof. intros O I. rewrite lenN_enc_args by now apply item_args_ok. unfold args_size, sum, item_size. cbn [map item_args fold_right arg_bytes]. rewrite N.add_0_r. reflexivity. Qed.
Lemma item_inj ev F a b : layout_ok F -> item_fits F a -> item_fits F b ->
  enc_args ev (item_args F a) = enc_args ev (item_args F b) -> a = b.
Proof.
  intros (P1 & P2 & _) (A1 & A2) (B1 & B2). unfold item_args, enc_args. cbn [map concat enc_arg]. rewrite !app_nil_r. intros E.
  pose proof (int_typed (l_order F) _ _ P1 A1) as T1. pose proof (int_typed (l_order F) _ _ P1 B1) as T2.
  pose proof (int_typed (l_order F) _ _ P2 A2) as T3. pose proof (int_typed (l_order F) _ _ P2 B2) as T4.
  fold (id_type F) in T1, T2. fold (data_type F) in T3, T4.
  assert (L : length (bytes_of_value ev (id_type F) (VInt (Z.of_N (it_id a)))) = length (bytes_of_value ev (id_type F) (VInt (Z.of_N (it_id b))))).
  { now rewrite !length_bytes_of_value. }
  apply app_inj_len in E; [|exact L]. destruct E as [E1 E2].
  apply (f_equal (value_of_bytes ev (id_type F))) in E1. rewrite !value_roundtrip in E1 by assumption.
  apply (f_equal (value_of_bytes ev (data_type F))) in E2. rewrite !value_roundtrip in E2 by assumption.
  injection E1 as E1. injection E2 as E2. destruct a as [ai ad], b as [bi bd]. cbn [it_id it_data] in *. f_equal; lia.
Qed.

(** Loading: the items that the bytes stand for, up to where less than one is left. *)
Lemma load_char b ev F buf : layout_ok F -> lenN buf < size_mod -> forall rounds p c l, p <= lenN buf ->
  (N.to_nat (lenN buf - p) < rounds)%nat -> RI c l ->
  exists items rest c', dropN p buf = enc_items ev F items ++ rest /\ Forall (item_fits F) items /\ lenN rest < item_size F /\
    load b ev F rounds (RView buf p) c = (Ok tt, c') /\
    RI c' (fold_left (fun l it => if has_id (it_id it) l then l else l ++ [it]) items l).
Proof.
  intros O LB. assert (R1 : rop_ok (RRead [id_type F; data_type F])).
  { destruct O as (O1 & O2 & O3). split; [discriminate|]. split; [repeat constructor; unfold vtype_ok; cbn; assumption|].
    rewrite !types_size_cons. change (types_size []) with 0. rewrite N.add_0_r. exact O3. }
  assert (S0 : 0 < item_size F) by (destruct O as (O1 & _); unfold item_size; lia).
  induction rounds as [|rounds IH]; intros p c l Hp HR R; [lia|].
  cbn [load]. rewrite rv_step_char by (assumption || (unfold rv_inv; cbn [rv_data rv_pos]; assumption)).
  cbn zeta. cbn [rv_data rv_pos]. rewrite !types_size_cons. change (types_size []) with 0. rewrite N.add_0_r.
  change (value_size (id_type F) + value_size (data_type F)) with (item_size F).
  destruct (N.ltb_spec (lenN buf) (p + item_size F)) as [A|A].
  - exists [], (dropN p buf), c. split; [reflexivity|]. split; [constructor|]. split; [rewrite lenN_dropN; lia|]. split; [reflexivity|exact R].
  - unfold rv_rest. cbn [rv_data rv_pos decode_all]. change (value_size (id_type F)) with (N.of_nat (l_id F)).
    change (value_size (data_type F)) with (N.of_nat (l_data F)). set (ni := N.of_nat (l_id F)) in *. set (nd := N.of_nat (l_data F)) in *.
    assert (SZ : item_size F = ni + nd) by reflexivity.
    destruct (look_int ev (l_order F) (l_id F) (takeN ni (dropN p buf))) as (i & Hi & Vi & Ei); [apply O|rewrite lenN_takeN, lenN_dropN; fold ni; lia|].
    destruct (look_int ev (l_order F) (l_data F) (takeN nd (dropN ni (dropN p buf)))) as (d & Hd & Vd & Ed);
      [apply O|rewrite lenN_takeN, !lenN_dropN; fold nd; lia|].
    fold (id_type F) in Vi, Ei. fold (data_type F) in Vd, Ed. rewrite Vi, Vd, !N2Z.id.
    destruct (try_insert_all b c l (mk_item i d) R) as (r & c1 & T & R').  rewrite T.
    destruct (IH (p + item_size F) c1 _ A ltac:(lia) R') as (items & rest & c' & E & FI & LR & LD & RR).
    exists (mk_item i d :: items), rest, c'. split; [|split; [|split; [exact LR|split; [exact LD|exact RR]]]].
    + rewrite enc_items_cons, <- app_assoc, <- E. unfold enc_args, item_args. cbn [map concat enc_arg it_id it_data].
      rewrite Ei, Ed, app_nil_r, <- app_assoc. rewrite SZ. replace (p + (ni + nd)) with (nd + (ni + p)) by lia.
      rewrite <- !dropN_dropN, !takeN_dropN. reflexivity.
    + constructor; [split; assumption|exact FI].
Qed.

Lemma filter_filter_and {A} (f g : A -> bool) l : filter f (filter g l) = filter (fun x => g x && f x) l.
Proof. induction l as [|x l IH]; [reflexivity|]. cbn [filter]. destruct (g x) eqn:G; cbn [filter andb]; [destruct (f x)|]; now rewrite IH. Qed.
Lemma fold_firsts items : forall l,
  fold_left (fun l it => if has_id (it_id it) l then l else l ++ [it]) items l
  = l ++ filter (fun x => negb (has_id (it_id x) l)) (firsts items).
Proof.
  induction items as [|it r IH]; intros l; [cbn; now rewrite app_nil_r|].
  cbn [fold_left firsts filter]. rewrite IH. destruct (has_id (it_id it) l) eqn:E; cbn [negb].
  - f_equal. rewrite filter_filter_and. apply filter_ext. intros x. destruct (N.eqb_spec (it_id x) (it_id it)) as [Q|Q].
    + rewrite Q, E. reflexivity.
    + reflexivity.
  - rewrite <- app_assoc. cbn [app]. do 2 f_equal. rewrite filter_filter_and. apply filter_ext. intros x. rewrite has_app.
    unfold has_id at 2. cbn [existsb]. rewrite orb_false_r, negb_orb, (N.eqb_sym (it_id it)). apply andb_comm.
Qed.
Lemma firsts_all items : fold_left (fun l it => if has_id (it_id it) l then l else l ++ [it]) items [] = firsts items.
Proof.
  rewrite fold_firsts. cbn [app]. induction (firsts items) as [|x l IH]; [reflexivity|]. change (x :: filter (fun x : item => negb (has_id (it_id x) [])) l = x :: l). now rewrite IH.
Qed.
Lemma firsts_distinct l : NoDup (map it_id l) -> firsts l = l.
Proof.
  induction l as [|x l IH]; [reflexivity|]. cbn [map firsts]. intros D. inversion D as [|? ? NI D']; subst. rewrite IH by assumption. f_equal.
  clear IH D D'. induction l as [|y l IH]; [reflexivity|]. cbn [map In] in NI. cbn [filter].
  destruct (N.eqb_spec (it_id y) (it_id x)); [tauto|]. cbn [negb]. rewrite IH by tauto. reflexivity.
Qed.

Lemma load_any b ev F buf rounds : layout_ok F -> lenN buf < size_mod -> (length buf < rounds)%nat ->
  exists items bs rest c, buf = bs ++ rest /\ Forall (item_fits F) items /\
    args_encoding ev (concat (map (item_args F) items)) bs /\ lenN rest < item_size F /\
    load b ev F rounds (rv_init buf) ic_empty_coll = (Ok tt, c) /\ holds b c (firsts items) /\ NoDup (map it_id (firsts items)).
Proof.
  intros O L HR. destruct (load_char b ev F buf O L rounds 0 ic_empty_coll []) as (items & rest & c & E & FI & LR & LD & RR);
    [lia|unfold lenN; lia|exact RI_empty|].
  rewrite dropN_0 in E. rewrite firsts_all in RR. exists items, (enc_items ev F items), rest, c.
  split; [exact E|]. split; [exact FI|]. split; [apply args_encoding_enc; now apply items_args_ok|]. split; [exact LR|].
  split; [exact LD|]. split; [now apply RI_holds|]. exact (ri_ids _ _ RR).
Qed.

(** ** Saving *)
Definition rec_of (F : layout) (it : item) : record :=
  [(id_type F, VInt (Z.of_N (it_id it))); (data_type F, VInt (Z.of_N (it_data it)))].
Lemma rec_ok F it : layout_ok F -> item_fits F it -> record_ok (rec_of F it).
Proof.
  intros (A & B & C) (D & E). split; [discriminate|]. split.
  - unfold rec_of. apply Forall_cons; [|apply Forall_cons; [|constructor]]; cbn [fst snd];
      (split; [unfold vtype_ok; cbn; assumption|apply int_typed; assumption]).
  - unfold types_of, rec_of. cbn [map fst]. rewrite !types_size_cons. change (types_size []) with 0. rewrite N.add_0_r. exact C.
Qed.
Lemma recs_size F items : log_size (map (rec_of F) items) = lenN items * item_size F.
Proof.
  induction items as [|it r IH]; [reflexivity|]. cbn [map]. rewrite log_size_cons, IH, lenN_cons.
  unfold types_of, rec_of. cbn [map fst]. rewrite !types_size_cons. change (types_size []) with 0. rewrite N.add_0_r.
  change (value_size (id_type F) + value_size (data_type F)) with (item_size F). lia.
Qed.
Lemma recs_enc ev F items : enc_log ev (map (rec_of F) items) = enc_items ev F items.
Proof.
  induction items as [|it r IH]; [reflexivity|]. rewrite enc_items_cons, <- IH. reflexivity.
Qed.

Lemma items_prefix ev F : layout_ok F -> forall done l rest more, Forall (item_fits F) done -> Forall (item_fits F) l ->
  lenN rest < item_size F -> enc_items ev F l = (enc_items ev F done ++ rest) ++ more ->
  done = takeN (lenN (enc_items ev F done ++ rest) / item_size F) l.
Proof.
  intros O. assert (S0 : 0 < item_size F) by (destruct O as (O1 & _); unfold item_size; lia).
  induction done as [|d done IH]; intros l rest more FD FL LR E.
  - change (enc_items ev F []) with (@nil byte). cbn [app]. rewrite N.div_small by assumption. now rewrite takeN_0.
  - pose proof (item_len ev F d O (Forall_inv FD)) as Ld. rewrite enc_items_cons in *.
    destruct l as [|x l].
    + exfalso. apply (f_equal lenN) in E. rewrite !lenN_app in E. change (lenN (enc_items ev F [])) with 0 in E. lia.
    + pose proof (item_len ev F x O (Forall_inv FL)) as Lx. rewrite enc_items_cons, <- !app_assoc in E.
      apply app_inj_len in E; [|unfold lenN in Ld, Lx; lia]. destruct E as [E1 E2].
      apply item_inj in E1; [|exact O|exact (Forall_inv FL)|exact (Forall_inv FD)]. subst x.
      assert (I : done = takeN (lenN (enc_items ev F done ++ rest) / item_size F) l)
        by (apply (IH l rest more (Forall_inv_tail FD) (Forall_inv_tail FL) LR); rewrite <- app_assoc; exact E2).
      assert (L : lenN ((enc_args ev (item_args F d) ++ enc_items ev F done) ++ rest) =
        lenN (enc_items ev F done ++ rest) + 1 * item_size F) by (rewrite !lenN_app, Ld; lia).
      rewrite L. clear L E2.
      rewrite N.div_add by lia. set (k := lenN (enc_items ev F done ++ rest) / item_size F).
      fold k in I. rewrite I at 1. unfold takeN. rewrite N.add_1_r, N2Nat.inj_succ. reflexivity.
Qed.


Lemma wv_run_app ev a b : forall v, wv_run ev v (a ++ b) =
  (fst (wv_run ev (fst (wv_run ev v a)) b), snd (wv_run ev v a) ++ snd (wv_run ev (fst (wv_run ev v a)) b)).
Proof.
  induction a as [|x a IH]; intros v; cbn [app wv_run fst snd]; [apply surjective_pairing|].
  destruct (wv_step ev v x) as [v1 o]. rewrite IH. destruct (wv_run ev v1 a) as [v2 os]. reflexivity.
Qed.
Lemma write_full ev F data pos : layout_ok F -> lenN data < ptr_max -> pos <= lenN data -> lenN data < pos + item_size F ->
  forall l, Forall (item_fits F) l ->
  wv_run ev (WView data pos) (map (fun it => WWrite (item_args F it)) l) = (WView data pos, repeat (Throw out_of_range) (length l)).
Proof.
  intros O L P Q l. induction 1 as [|it l I _ IH]; [reflexivity|]. cbn [map wv_run length repeat].
  assert (SZ : args_size (item_args F it) = item_size F) by (rewrite <- (lenN_enc_args ev) by (now apply item_args_ok); now apply item_len).
  rewrite wv_throwing_char; [|exact P|exact L| |exact Logic.I].
  - cbn [wop_args wv_data wv_pos]. rewrite SZ, (proj2 (N.ltb_lt _ _)) by assumption. rewrite IH. reflexivity.
  - split; [discriminate|]. split; [now apply item_args_ok|]. rewrite SZ. apply O.
Qed.

Lemma saved_loaded b1 b2 ev1 ev2 F ops xs l c buf k n rounds : layout_ok F -> configured_right ev1 -> configured_right ev2 ->
  spec_run ops [] = Some (xs, l) -> ic_run b1 ops ic_empty_coll = (xs, c) -> Forall (item_fits F) l ->
  lenN buf < ptr_max -> k = N.min (lenN l) (lenN buf / item_size F) -> n <= k * item_size F -> (N.to_nat n < rounds)%nat ->
  exists data, save b1 ev1 F c (wv_init buf) =
      Ok (WView data (k * item_size F), repeat (Ok (WOCount (item_size F))) (N.to_nat k) ++
                                        repeat (Throw out_of_range) (N.to_nat (lenN l - k))) /\
    lenN data = lenN buf /\ dropN (k * item_size F) data = dropN (k * item_size F) buf /\
    exists c', load b2 ev2 F rounds (rv_init (takeN n data)) ic_empty_coll = (Ok tt, c') /\
      holds b1 c l /\ holds b2 c' (takeN (n / item_size F) l).
Proof.
  intros O C1 C2 SR RUN FI LB Hk Hn HR. pose proof ptr_max_lt as PM.
  destruct (coll_refines b1 ops xs l SR) as (c0 & RUN' & Q1 & Q2 & Q3 & Q4 & Q5). rewrite RUN in RUN'. injection RUN' as <-.
  assert (S0 : 0 < item_size F) by (destruct O as (O1 & _); unfold item_size; lia).
  pose proof (N.div_mod (lenN buf) (item_size F) ltac:(lia)) as DM. pose proof (N.mod_lt (lenN buf) (item_size F) ltac:(lia)) as ML.
  set (q := lenN buf / item_size F) in *. set (sz := item_size F) in *.
  assert (LS : k * sz <= lenN buf) by nia.
  assert (LT : lenN (takeN k l) = k) by (rewrite lenN_takeN; lia).
  assert (FT : Forall (item_fits F) (takeN k l)) by (rewrite <- (takeN_dropN k l) in FI; now apply Forall_app in FI).
  assert (FD : Forall (item_fits F) (dropN k l)) by (rewrite <- (takeN_dropN k l) in FI; now apply Forall_app in FI).
  assert (RO : Forall record_ok (map (rec_of F) (takeN k l))) by (apply Forall_map; eapply Forall_impl; [|exact FT]; intros it; now apply rec_ok).
  destruct (write_log ev1 (map (rec_of F) (takeN k l)) buf 0 RO LB) as (data & W & LD & T & D); [rewrite recs_size, LT; fold sz; lia|].
  rewrite recs_size, LT in W, T, D. fold sz in W, T, D. rewrite N.add_0_l in W, T, D. rewrite takeN_0 in T. cbn [app] in T.
  assert (X : enc_log ev1 (map (rec_of F) (takeN k l)) = enc_log ev2 (map (rec_of F) (takeN k l))).
  { apply exchange_enc; [|exact RO]. right. split; [exact C1|]. split; [exact C2|]. apply Forall_map. apply Forall_forall. intros it _.
    unfold types_of, rec_of. cbn [map fst]. repeat constructor. }
  rewrite X, recs_enc in T.
  exists data. split.
  { unfold save. rewrite Q3. cbn [obind]. unfold wv_init. rewrite map_map in W.
    change (fun x => write_record (rec_of F x)) with (fun x => WWrite (item_args F x)) in W.
    assert (CT : map (fun r => Ok (WOCount (types_size (types_of r)))) (map (rec_of F) (takeN k l)) = repeat (Ok (WOCount sz)) (N.to_nat k)).
    { rewrite map_map. rewrite <- LT at 2. unfold lenN. rewrite Nat2N.id. generalize (takeN k l). intros m.
      induction m as [|x m IH]; [reflexivity|]. cbn [map length repeat]. rewrite IH. do 3 f_equal.
      unfold types_of, rec_of. cbn [map fst]. rewrite !types_size_cons. change (types_size []) with 0. now rewrite N.add_0_r. }
    rewrite CT in W. rewrite <- (takeN_dropN k l) at 1. rewrite map_app, wv_run_app, W. cbn [fst snd].
    assert (Z : wv_run ev1 (WView data (k * sz)) (map (fun it => WWrite (item_args F it)) (dropN k l)) =
                (WView data (k * sz), repeat (Throw out_of_range) (N.to_nat (lenN l - k)))).
    { destruct (N.le_gt_cases (lenN l) k) as [A|A].
      - rewrite dropN_all by lia. replace (lenN l - k) with 0 by lia. reflexivity.
      - rewrite (write_full ev1 F data (k * sz) O); [|lia|lia|fold sz; nia|exact FD].
        replace (N.to_nat (lenN l - k)) with (length (dropN k l)); [reflexivity|]. rewrite <- lenN_dropN. unfold lenN. lia. }
    rewrite Z. reflexivity. }
  split; [exact LD|]. split; [exact D|].
  assert (Ln : lenN (takeN n data) = n) by (rewrite lenN_takeN; lia).
  destruct (load_char b2 ev2 F (takeN n data) O) with (rounds := rounds) (p := 0) (c := ic_empty_coll) (l := @nil item)
    as (items & rest & c' & E & FI' & LR & LO & RR); [lia|lia|lia|exact RI_empty|].
  rewrite dropN_0 in E.
  assert (NK : n / sz <= k) by (apply N.div_le_upper_bound; lia).
  assert (P : items = takeN (n / sz) l).
  { replace (takeN (n / sz) l) with (takeN (n / sz) (takeN k l)) by (rewrite takeN_takeN; f_equal; lia).
    rewrite <- Ln at 1. rewrite E. apply (items_prefix ev2 F O items (takeN k l) rest (dropN n (takeN (k * sz) data))); try assumption.
    rewrite <- E, <- T. rewrite <- (takeN_dropN n (takeN (k * sz) data)) at 1. f_equal.
    rewrite takeN_takeN. f_equal. lia. }
  exists c'. split; [exact LO|]. split.
  - repeat split; assumption.
  - rewrite firsts_all, P in RR. apply RI_holds. rewrite firsts_distinct in RR; [exact RR|].
    pose proof (spec_ids_distinct b1 ops xs l SR) as ND. clear - ND. unfold takeN. rewrite <- firstn_map. revert ND. generalize (map it_id l). intros m ND.
    generalize (N.to_nat (n / sz)). intros k.
    revert m ND. induction k as [|k IH]; intros m ND; [constructor|]. destruct ND as [|x m NI ND]; [constructor|]. cbn [firstn].
    constructor; [|now apply IH]. intros H. apply NI. rewrite <- (firstn_skipn k m). apply in_or_app. now left.
Qed.

(** ** Through a file *)
Lemma crashed_save b1 b2 ev1 ev2 F ops xs l c buf st outs w f p r f' w2 bs rounds :
  layout_ok F -> configured_right ev1 -> configured_right ev2 ->
  spec_run ops [] = Some (xs, l) -> ic_run b1 ops ic_empty_coll = (xs, c) -> Forall (item_fits F) l -> lenN buf < ptr_max ->
  save b1 ev1 F c (wv_init buf) = Ok (st, outs) -> rg_mem r = wv_data st ->
  In f' (fst (write_file_trace w f p (wv_pos st) r)) -> full_reads w2 -> read_file w2 f' p None = Ok bs -> (length bs < rounds)%nat ->
  exists c', load b2 ev2 F rounds (rv_init bs) ic_empty_coll = (Ok tt, c') /\ holds b2 c' (takeN (lenN bs / item_size F) l).
Proof.
  intros O C1 C2 SR RUN FI LB SV M I FR RF HR. destruct (crash_states _ _ _ _ _ _ I) as ((x & C & P) & _).
  rewrite file_read_exact in RF by exact FR. destruct (can_read w2 p); [|discriminate]. rewrite C in RF. injection RF as <-.
  destruct P as (z & E).
  set (k := N.min (lenN l) (lenN buf / item_size F)).
  assert (S0 : 0 < item_size F) by (destruct O as (O1 & _); unfold item_size; lia).
  assert (Hk : wv_pos st = k * item_size F /\ lenN (wv_data st) = lenN buf).
  { destruct (saved_loaded b1 b2 ev1 ev2 F ops xs l c buf k 0 1%nat O C1 C2 SR RUN FI LB eq_refl ltac:(lia) ltac:(cbn; lia))
      as (data & SV' & LD & _). rewrite SV in SV'. injection SV' as -> _. split; [reflexivity|exact LD]. }
  destruct Hk as [HP HD].
  assert (KB : k * item_size F <= lenN buf).
  { pose proof (N.mul_div_le (lenN buf) (item_size F) ltac:(lia)). unfold k. nia. }
  assert (Hn : lenN x <= k * item_size F).
  { apply (f_equal lenN) in E. rewrite lenN_app, lenN_takeN, M in E. lia. }
  destruct (saved_loaded b1 b2 ev1 ev2 F ops xs l c buf k (lenN x) rounds O C1 C2 SR RUN FI LB eq_refl Hn ltac:(unfold lenN; lia))
    as (data & SV' & LD & _ & c' & LO & _ & HC).
  rewrite SV in SV'. injection SV' as -> _. cbn [wv_data wv_pos] in *.
  assert (X : takeN (lenN x) data = x).
  { rewrite M in E. apply (f_equal (takeN (lenN x))) in E. rewrite takeN_takeN in E. rewrite takeN_app_exact in E by reflexivity.
    replace (N.min (lenN x) (k * item_size F)) with (lenN x) in E by lia. exact E. }
  rewrite X in LO. eauto.
Qed.
