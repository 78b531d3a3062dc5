(** Proofs about logs that were saved whole or in part. *)
From Coq Require Import List Lia NArith. Import ListNotations.
From Verif Require Import Base BaseFacts Io_Model Io_Spec Io_Proofs IoRead_Proofs IoView_Model IoView_Spec IoView_Proofs IoView_PropLemmas
  File_Model File_Spec File_Proofs IoPort_Spec IoPort_Proofs Log_Spec.
Local Open Scope N_scope.

Definition enc_record (ev : env) (r : record) : list byte := enc_args ev (args_of (types_of r) (values_of r)).
Definition enc_log (ev : env) (rs : list record) : list byte := concat (map (enc_record ev) rs).

Lemma record_args r : map (fun x => AVal (fst x) (snd x)) r = args_of (types_of r) (values_of r).
Proof.
  unfold args_of, types_of, values_of. induction r as [|[t v] r IH]; [reflexivity|]. cbn. now rewrite IH.
Qed.
Lemma record_typed r : record_ok r -> Forall2 typed (types_of r) (values_of r).
Proof.
  intros (_ & F & _). unfold types_of, values_of. induction F as [|[t v] r (_ & T) _ IH]; cbn; constructor; auto.
Qed.
Lemma record_len ev r : record_ok r -> lenN (enc_record ev r) = types_size (types_of r).
Proof.
  intros R. pose proof (record_typed r R) as T. unfold enc_record. rewrite lenN_enc_args by now apply args_of_ok.
  apply args_of_size. now apply (Forall2_length _ _ _ T).
Qed.
Lemma log_size_cons r rs : log_size (r :: rs) = types_size (types_of r) + log_size rs.
Proof. reflexivity. Qed.
Lemma log_size_app a b : log_size (a ++ b) = log_size a + log_size b.
Proof. induction a as [|r a IH]; [reflexivity|]. cbn [app]. rewrite !log_size_cons, IH. lia. Qed.
Lemma enc_log_len ev rs : Forall record_ok rs -> lenN (enc_log ev rs) = log_size rs.
Proof.
  induction 1 as [|r rs R _ IH]; [reflexivity|]. unfold enc_log in *. cbn [map concat]. rewrite lenN_app, record_len, IH by exact R. reflexivity.
Qed.
Lemma exchange_enc ev1 ev2 rs : can_exchange ev1 ev2 rs -> Forall record_ok rs -> enc_log ev1 rs = enc_log ev2 rs.
Proof.
  intros [->|(A & B & P)] F; [reflexivity|]. unfold enc_log. f_equal. apply map_ext_in. intros r I.
  rewrite Forall_forall in F, P. unfold enc_record. apply portable_enc; auto. now apply record_typed, F.
Qed.

(** * Writing *)
Lemma write_log ev rs : forall buf p, Forall record_ok rs -> lenN buf < ptr_max -> p + log_size rs <= lenN buf ->
  exists buf', wv_run ev (WView buf p) (map write_record rs) =
      (WView buf' (p + log_size rs), map (fun r => Ok (WOCount (types_size (types_of r)))) rs) /\
    lenN buf' = lenN buf /\ takeN (p + log_size rs) buf' = takeN p buf ++ enc_log ev rs /\
    dropN (p + log_size rs) buf' = dropN (p + log_size rs) buf.
Proof.
  induction rs as [|r rs IH]; intros buf p F L S.
  - exists buf. cbn. change (log_size []) with 0. rewrite N.add_0_r, app_nil_r. repeat split.
  - pose proof (Forall_inv F) as R. rewrite log_size_cons in S. cbn [map wv_run].
    assert (W : wop_ok (write_record r)).
    { unfold write_record. rewrite record_args. split; [|split].
      - destruct R as (NE & _). destruct r; [congruence|]. cbn. discriminate.
      - now apply args_of_ok, record_typed.
      - rewrite args_of_size by (now apply (Forall2_length _ _ _ (record_typed r R))). apply R. }
    rewrite wv_throwing_char; [|unfold wv_inv; cbn; lia|exact L|exact W|exact Logic.I].
    cbn [wv_data wv_pos]. unfold write_record at 1 2 3 4. cbn [wop_args]. rewrite record_args.
    rewrite args_of_size by (now apply (Forall2_length _ _ _ (record_typed r R))).
    rewrite (proj2 (N.ltb_ge _ _)) by lia. fold (enc_record ev r). pose proof (record_len ev r R) as LR.
    destruct (IH (splice buf p (enc_record ev r)) (p + types_size (types_of r)) (Forall_inv_tail F)) as (buf' & E & LB & T & D).
    { rewrite lenN_splice by lia. exact L. }
    { rewrite lenN_splice by lia. lia. }
    exists buf'. rewrite E. rewrite log_size_cons, N.add_assoc. split; [reflexivity|]. split; [rewrite LB; apply lenN_splice; lia|].
    split.
    + rewrite T. unfold enc_log. cbn [map concat]. rewrite app_assoc. f_equal.
      unfold splice. rewrite app_assoc. rewrite takeN_app_exact; [reflexivity|]. rewrite lenN_app, lenN_takeN. lia.
    + rewrite D. unfold splice. rewrite app_assoc, dropN_app. rewrite dropN_all by (rewrite lenN_app, lenN_takeN; lia). cbn [app].
      rewrite dropN_dropN. f_equal. rewrite lenN_app, lenN_takeN. lia.
Qed.

(** * Reading *)
Lemma read_log ev rs : forall tail b p, Forall record_ok rs -> lenN b < ptr_max -> p <= lenN b ->
  prefix_of (dropN p b) (enc_log ev rs ++ tail) ->
  exists done rest, whole_records rs (lenN b - p) done rest /\
    rv_run ev (RView b p) (map read_record done) = (RView b (p + log_size done), map (fun r => Ok (ROVals (values_of r))) done) /\
    (forall r rs', rest = r :: rs' ->
       rv_step ev (RView b (p + log_size done)) (read_record r) = (RView b (p + log_size done), Throw out_of_range)).
Proof.
  induction rs as [|r rs IH]; intros tail b p F L P PR.
  - exists [], []. change (log_size []) with 0. rewrite N.add_0_r. split; [|split; [reflexivity|discriminate]].
    split; [reflexivity|]. change (log_size []) with 0. split; [lia|exact Logic.I].
  - pose proof (Forall_inv F) as R. pose proof ptr_max_lt as PM.
    assert (RO : rop_ok (RRead (types_of r))).
    { destruct R as (NE & V & S). split; [|split; [|exact S]].
      - unfold types_of. destruct r; [congruence|discriminate].
      - unfold types_of. rewrite Forall_map. eapply Forall_impl; [|exact V]. now intros [t v] (A & _). }
    assert (ST : rv_step ev (RView b p) (read_record r) =
      if lenN b <? p + types_size (types_of r) then (RView b p, Throw out_of_range)
      else (RView b (p + types_size (types_of r)), Ok (ROVals (decode_all ev (types_of r) (dropN p b))))).
    { unfold read_record. rewrite (read_view_at b p (RRead (types_of r)) ev P ltac:(lia) (types_of r) RO eq_refl).
      destruct R as (_ & _ & S). rewrite read_at_char by lia.
      rewrite (proj2 (N.leb_gt _ _)) by (assert (ptr_max + ptr_max = size_mod) by reflexivity; lia).
      now destruct (lenN b <? p + types_size (types_of r)). }
    destruct (N.ltb_spec (lenN b) (p + types_size (types_of r))) as [LT|GE].
    + exists [], (r :: rs). change (log_size []) with 0. rewrite N.add_0_r. split; [|split; [reflexivity|]].
      * split; [reflexivity|]. change (log_size []) with 0. split; [lia|]. cbn [app]. rewrite log_size_cons. change (log_size []) with 0. lia.
      * intros r' rs' E. injection E as <- <-. exact ST.
    + destruct PR as (z & PR). unfold enc_log in PR. cbn [map concat] in PR. rewrite <- app_assoc in PR.
      pose proof (record_len ev r R) as LR.
      assert (SP : dropN p b = enc_record ev r ++ dropN (p + types_size (types_of r)) b).
      { rewrite <- (takeN_dropN (types_size (types_of r)) (dropN p b)) at 1. rewrite dropN_dropN.
        f_equal; [|f_equal; lia]. pose proof (f_equal (takeN (types_size (types_of r))) PR) as T.
        rewrite takeN_app_exact in T by lia. rewrite takeN_app in T. 
        replace (types_size (types_of r) - lenN (dropN p b)) with 0 in T by (rewrite lenN_dropN; lia).
        rewrite takeN_0, app_nil_r in T. now symmetry. }
      destruct (IH tail b (p + types_size (types_of r)) (Forall_inv_tail F) L GE) as (done & rest & (E1 & E2 & E3) & E4 & E5).
      { exists z. rewrite SP in PR. rewrite <- app_assoc in PR. apply app_inv_head in PR. exact PR. }
      exists (r :: done), rest. split; [|split].
      * split; [cbn; now rewrite E1|]. cbn [app]. split; [rewrite log_size_cons; lia|]. destruct rest as [|x rest]; [exact Logic.I|].
        rewrite log_size_cons. lia.
      * cbn [map rv_run]. rewrite ST. rewrite E4. rewrite log_size_cons, N.add_assoc. do 3 f_equal.
        rewrite SP. unfold enc_record. rewrite decode_enc by now apply record_typed. reflexivity.
      * intros x xs E. rewrite log_size_cons, N.add_assoc. now apply (E5 x xs).
Qed.

(** * Together *)
Lemma saved_log ev1 ev2 rs buf st outs c x w2 b (p : path) : can_exchange ev1 ev2 rs -> Forall record_ok rs ->
  lenN buf < ptr_max -> log_size rs <= lenN buf ->
  wv_run ev1 (wv_init buf) (map write_record rs) = (st, outs) ->
  c p = Some x -> prefix_of x (wv_data st) -> full_reads w2 -> read_file w2 c p None = Ok b ->
  exists done rest, whole_records rs (lenN b) done rest /\
    rv_run ev2 (rv_init b) (map read_record done) = (RView b (log_size done), map (fun r => Ok (ROVals (values_of r))) done) /\
    (forall r rs', rest = r :: rs' ->
       rv_step ev2 (RView b (log_size done)) (read_record r) = (RView b (log_size done), Throw out_of_range)).
Proof.
  intros X F L S W C P FR RF. destruct (write_log ev1 rs buf 0 F L) as (buf' & E & LB & T & _); [lia|].
  unfold wv_init in W. rewrite E in W. injection W as <- <-. cbn [wv_data] in P.
  rewrite file_read_exact in RF by exact FR. destruct (can_read w2 p); [|discriminate]. rewrite C in RF. injection RF as <-.
  rewrite N.add_0_l, takeN_0 in T. cbn [app] in T.
  destruct (read_log ev2 rs (dropN (log_size rs) buf') x 0 F) as (done & rest & A & B & D).
  - destruct P as (z & ->). rewrite lenN_app in LB. lia.
  - lia.
  - rewrite dropN_0. rewrite <- (exchange_enc ev1 ev2 rs X F), <- T, takeN_dropN. exact P.
  - exists done, rest. rewrite N.sub_0_r in A. rewrite N.add_0_l in B, D. split; [exact A|]. split; [exact B|exact D].
Qed.

Lemma prefix_takeN {A} (x l : list A) n : prefix_of x (takeN n l) -> prefix_of x l.
Proof. intros (z & E). exists (z ++ dropN n l). now rewrite app_assoc, <- E, takeN_dropN. Qed.
Lemma crashed_log ev1 ev2 rs buf st outs w f p r c w2 b : can_exchange ev1 ev2 rs -> Forall record_ok rs ->
  lenN buf < ptr_max -> log_size rs <= lenN buf ->
  wv_run ev1 (wv_init buf) (map write_record rs) = (st, outs) -> rg_mem r = wv_data st ->
  In c (fst (write_file_trace w f p (rg_count r) r)) -> full_reads w2 -> read_file w2 c p None = Ok b ->
  exists done rest, whole_records rs (lenN b) done rest /\
    rv_run ev2 (rv_init b) (map read_record done) = (RView b (log_size done), map (fun x => Ok (ROVals (values_of x))) done) /\
    (forall x xs, rest = x :: xs ->
       rv_step ev2 (RView b (log_size done)) (read_record x) = (RView b (log_size done), Throw out_of_range)).
Proof.
  intros X F L S W M I FR RF. destruct (crash_states _ _ _ _ _ _ I) as ((x & C & P) & _).
  refine (saved_log ev1 ev2 rs buf st outs c x w2 b p X F L S W C _ FR RF). rewrite <- M. now apply (prefix_takeN _ _ (rg_count r)).
Qed.
Lemma returned_log ev1 ev2 rs buf st outs w f p r c w2 b : can_exchange ev1 ev2 rs -> Forall record_ok rs ->
  lenN buf < ptr_max -> log_size rs <= lenN buf ->
  wv_run ev1 (wv_init buf) (map write_record rs) = (st, outs) -> rg_mem r = wv_data st -> byte_range_of r ->
  write_file w f p r = (c, Ok tt) \/ try_write_file w f p r = (c, Ok true) ->
  full_reads w2 -> read_file w2 c p None = Ok b ->
  exists done rest, whole_records rs (lenN b) done rest /\
    rv_run ev2 (rv_init b) (map read_record done) = (RView b (log_size done), map (fun x => Ok (ROVals (values_of x))) done) /\
    (forall x xs, rest = x :: xs ->
       rv_step ev2 (RView b (log_size done)) (read_record x) = (RView b (log_size done), Throw out_of_range)) /\
    (full_writes w (lenN buf) -> rest = [] /\ b = wv_data st).
Proof.
  intros X F L S W M BR WF FR RF.
  assert (P : exists x, c p = Some x /\ prefix_of x (wv_data st)).
  { rewrite <- M. destruct (write_leaves_prefix w f p (rg_count r) r c) as ((x & C & P) & _).
    - destruct BR as (E1 & R). red in R. rewrite E1 in R. lia.
    - destruct WF as [WF|WF].
      + left. exact WF.
      + right. unfold try_write_file in WF. unfold try_write_file_n. destruct (write_file_trace w f p (rg_count r) r) as [tr o].
        injection WF as <- ->. reflexivity.
    - exists x. split; [exact C|]. now apply (prefix_takeN _ _ (rg_count r)). }
  destruct P as (x & C & P).
  destruct (saved_log ev1 ev2 rs buf st outs c x w2 b p X F L S W C P FR RF) as (done & rest & A & B & D).
  exists done, rest. split; [exact A|]. split; [exact B|]. split; [exact D|]. intros FW.
  destruct (write_log ev1 rs buf 0 F L) as (buf' & E & LB & _); [lia|]. unfold wv_init in W. rewrite E in W. injection W as <- <-.
  cbn [wv_data] in *.
  destruct (file_write_exact w f p r BR) as (X1 & X2); [now rewrite M, LB|].
  assert (CE : c p = Some buf').
  { destruct WF as [WF|WF]; [rewrite X1 in WF|rewrite X2 in WF]; destruct (can_write w p); try discriminate; injection WF as <-;
      unfold fs_set; rewrite N.eqb_refl; now rewrite M. }
  rewrite file_read_exact in RF by exact FR. destruct (can_read w2 p); [|discriminate]. rewrite CE in RF. injection RF as <-.
  split; [|reflexivity]. destruct rest as [|y rest]; [reflexivity|]. destruct A as (E1 & _ & E3). rewrite E1 in S.
  rewrite !log_size_app in *. rewrite log_size_cons in S, E3. change (log_size []) with 0 in E3. lia.
Qed.
