(** Proofs about several views of one buffer. *)
From Verif Require Import Base BaseFacts Io_Model Io_Spec Io_Proofs IoRead_Proofs IoView_Model IoView_Spec IoView_Proofs.

Lemma unchecked_seek_ok len p : p <= len -> len < ptr_max -> advance_signed len 0 (to_ptrdiff p) = Ok p.
Proof. intros H L. assert (ptr_max = 2 ^ 63) by reflexivity. rewrite advance_signed_ok by lia. f_equal. Qed.

Lemma unchecked_seek_bad len p : len < p -> len < ptr_max -> p < size_mod -> advance_signed len 0 (to_ptrdiff p) = UB.
Proof.
  intros H L M. assert (ptr_max = 2 ^ 63) by reflexivity. assert (size_mod = 2 ^ 64) by reflexivity.
  unfold advance_signed, to_ptrdiff. destruct (N.ltb_spec p (2 ^ 63)).
  - rewrite (proj2 (Z.leb_le _ _)) by lia. destruct (Z.leb_spec (Z.of_N 0 + Z.of_N p) (Z.of_N len)); [lia|]. reflexivity.
  - rewrite (proj2 (Z.leb_gt _ _)) by lia. reflexivity.
Qed.
Lemma unchecked_seek_exact buf q p : lenN buf < ptr_max -> p < size_mod ->
  rv_unchecked_seek (RView buf q) p = (if p <=? lenN buf then Ok (RView buf p) else UB) /\
  wv_unchecked_seek (WView buf q) p = (if p <=? lenN buf then Ok (WView buf p) else UB).
Proof.
  intros L M. unfold rv_unchecked_seek, wv_unchecked_seek. cbn [rv_data wv_data]. destruct (N.leb_spec p (lenN buf)).
  - rewrite unchecked_seek_ok by assumption. split; reflexivity.
  - rewrite unchecked_seek_bad by assumption. split; reflexivity.
Qed.

(** ** Safety *)

Definition sh_inv (len : N) (st : shared) : Prop :=
  lenN (sh_buf st) = len /\ (forall i, sh_r st i <= len) /\ (forall i, sh_w st i <= len).

Lemma defined_fine {A} (o : outcome A) : defined o -> (exists r, o = Ok r) \/ (exists e, o = Throw e).
Proof. destruct o; cbn; intros []; eauto. Qed.

Lemma put_pos_le len f i p : (forall k, f k <= len) -> p <= len -> forall k, put_pos f i p k <= len.
Proof. intros H Hp k. unfold put_pos. destruct (k =? i); auto. Qed.

Lemma sh_step_inv ev len st o : len < ptr_max -> sh_inv len st -> sop_ok len o ->
  sh_inv len (fst (sh_step ev st o)) /\ sout_fine (snd (sh_step ev st o)) /\
  (match o with SR _ _ | SRJump _ _ | SWJump _ _ => sh_buf (fst (sh_step ev st o)) = sh_buf st | _ => True end).
Proof.
  intros Hl (A & B & C) Ho. pose proof ptr_max_lt as Hm. destruct o as [i op|i op|i p|i p]; cbn [sh_step sop_ok] in *.
  - destruct (rv_step_inv ev (RView (sh_buf st) (sh_r st i)) op) as (D & E & F).
    { unfold rv_inv. cbn. rewrite A. apply B. } { cbn [rv_data wv_data]. rewrite A. lia. } { exact Ho. }
    destruct (rv_step ev _ op) as [v out]. cbn [fst snd] in *. cbn [rv_data] in E. unfold rv_inv in D. rewrite E in *.
    split; [|split; [now apply defined_fine|reflexivity]]. split; [exact A|]. cbn [sh_r sh_w]. split; [|exact C].
    apply put_pos_le; [exact B|lia].
  - destruct (wv_step_inv ev (WView (sh_buf st) (sh_w st i)) op) as (D & E & F).
    { unfold wv_inv. cbn. rewrite A. apply C. } { cbn [rv_data wv_data]. rewrite A. lia. } { exact Ho. }
    destruct (wv_step ev _ op) as [v out]. cbn [fst snd] in *. cbn [wv_data] in E. unfold wv_inv in D. rewrite E in *.
    split; [|split; [now apply defined_fine|exact I]]. split; [cbn; congruence|]. cbn [sh_r sh_w]. split; [exact B|].
    apply put_pos_le; [exact C|lia].
  - unfold rv_unchecked_seek. cbn [rv_data]. rewrite A, unchecked_seek_ok by assumption. cbn [obind fst snd rv_data rv_pos].
    split; [|split; reflexivity]. split; [exact A|]. cbn [sh_r sh_w]. split; [|exact C]. now apply put_pos_le.
  - unfold wv_unchecked_seek. cbn [wv_data]. rewrite A, unchecked_seek_ok by assumption. cbn [obind fst snd wv_data wv_pos].
    split; [|split; reflexivity]. split; [exact A|]. cbn [sh_r sh_w]. split; [exact B|]. now apply put_pos_le.
Qed.

Lemma sh_run_inv ev len ops : forall st, len < ptr_max -> sh_inv len st -> Forall (sop_ok len) ops ->
  sh_inv len (fst (sh_run ev st ops)) /\ Forall sout_fine (snd (sh_run ev st ops)) /\
  length (snd (sh_run ev st ops)) = length ops.
Proof.
  induction ops as [|o r IH]; intros st Hl Hi Ho; [cbn; auto|]. inversion Ho as [|? ? Ho1 Hr]; subst.
  destruct (sh_step_inv ev len st o Hl Hi Ho1) as (A & B & _). cbn [sh_run]. destruct (sh_step ev st o) as [st1 x].
  cbn [fst snd] in *. destruct (IH st1 Hl A Hr) as (C & D & F). destruct (sh_run ev st1 r) as [st2 xs]. cbn [fst snd length] in *.
  auto.
Qed.

Lemma shared_safe ev buf rp wp ops : lenN buf < ptr_max -> (forall i, rp i <= lenN buf) -> (forall i, wp i <= lenN buf) ->
  Forall (sop_ok (lenN buf)) ops ->
  let '(st, outs) := sh_run ev (Shared buf rp wp) ops in
  lenN (sh_buf st) = lenN buf /\ (forall i, sh_r st i <= lenN buf) /\ (forall i, sh_w st i <= lenN buf) /\
  length outs = length ops /\ Forall sout_fine outs.
Proof.
  intros Hl A B Ho. destruct (sh_run_inv ev (lenN buf) ops (Shared buf rp wp) Hl) as ((C & D & E) & F & G).
  { split; [reflexivity|split; assumption]. } { exact Ho. }
  destruct (sh_run ev (Shared buf rp wp) ops) as [st outs]. cbn [fst snd] in *. auto.
Qed.

(** ** Other readers do not matter *)

Definition agree (r : N) (a b : shared) : Prop :=
  sh_buf a = sh_buf b /\ sh_r a r = sh_r b r /\ forall i, sh_w a i = sh_w b i.

Lemma agree_step ev len r a b o : len < ptr_max -> sh_inv len a -> sop_ok len o -> agree r a b ->
  if matters r o then agree r (fst (sh_step ev a o)) (fst (sh_step ev b o)) /\ snd (sh_step ev a o) = snd (sh_step ev b o)
  else agree r (fst (sh_step ev a o)) b.
Proof.
  intros Hl Hi Ho (A & B & C). destruct (sh_step_inv ev len a o Hl Hi Ho) as (_ & _ & K).
  destruct o as [i op|i op|i p|i p]; cbn [matters].
  - destruct (N.eqb_spec i r) as [->|N].
    + cbn [sh_step]. rewrite A, B. destruct (rv_step ev _ op) as [v out]. cbn [fst snd]. split; [|reflexivity].
      split; [reflexivity|]. cbn [sh_r sh_w]. unfold put_pos. rewrite N.eqb_refl. auto.
    + split; [congruence|]. cbn [sh_step] in *. destruct (rv_step ev _ op) as [v out]. cbn [fst snd sh_r sh_w] in *.
      unfold put_pos. rewrite (proj2 (N.eqb_neq r i)) by congruence. auto.
  - cbn [sh_step]. rewrite A, C. destruct (wv_step ev _ op) as [v out]. cbn [fst snd]. split; [|reflexivity].
    split; [reflexivity|]. cbn [sh_r sh_w]. split; [exact B|]. intros k. unfold put_pos. destruct (k =? i); auto.
  - destruct (N.eqb_spec i r) as [->|N].
    + cbn [sh_step]. rewrite A, B. destruct (rv_unchecked_seek _ p) as [v| | | |]; cbn [fst snd]; split; try reflexivity; try (repeat split; assumption).
      split; [reflexivity|]. cbn [sh_r sh_w]. unfold put_pos. rewrite N.eqb_refl. auto.
    + split; [congruence|]. cbn [sh_step] in *. destruct (rv_unchecked_seek _ p) as [v| | | |]; cbn [fst snd sh_r sh_w] in *; auto.
      unfold put_pos. rewrite (proj2 (N.eqb_neq r i)) by congruence. auto.
  - cbn [sh_step]. rewrite A, C. destruct (wv_unchecked_seek _ p) as [v| | | |]; cbn [fst snd]; split; try reflexivity; try (repeat split; assumption).
    split; [reflexivity|]. cbn [sh_r sh_w]. split; [exact B|]. intros k. unfold put_pos. destruct (k =? i); auto.
Qed.

Lemma readers_independent_gen ev len r ops : forall a b, len < ptr_max -> sh_inv len a -> Forall (sop_ok len) ops -> agree r a b ->
  let '(a', xs) := sh_run ev a ops in let '(b', ys) := sh_run ev b (filter (matters r) ops) in
  agree r a' b' /\ ys = map snd (filter (fun p => matters r (fst p)) (combine ops xs)).
Proof.
  induction ops as [|o rest IH]; intros a b Hl Hi Ho Hg; [cbn; auto|]. inversion Ho as [|? ? Ho1 Hr]; subst.
  pose proof (agree_step ev len r a b o Hl Hi Ho1 Hg) as S. destruct (sh_step_inv ev len a o Hl Hi Ho1) as (Hi1 & _).
  cbn [sh_run filter]. destruct (matters r o) eqn:M.
  - destruct S as (S & Sx). cbn [sh_run]. destruct (sh_step ev a o) as [a1 x], (sh_step ev b o) as [b1 y]. cbn [fst snd] in *.
    specialize (IH a1 b1 Hl Hi1 Hr S). destruct (sh_run ev a1 rest) as [a2 xs], (sh_run ev b1 (filter _ rest)) as [b2 ys].
    destruct IH as (G & ->). split; [exact G|]. cbn [combine filter fst]. rewrite M. cbn [map snd]. now subst.
  - destruct (sh_step ev a o) as [a1 x]. cbn [fst snd] in *. specialize (IH a1 b Hl Hi1 Hr S).
    destruct (sh_run ev a1 rest) as [a2 xs], (sh_run ev b (filter _ rest)) as [b2 ys].
    destruct IH as (G & ->). split; [exact G|]. cbn [combine filter fst]. now rewrite M.
Qed.

Lemma readers_independent ev buf rp wp r ops : lenN buf < ptr_max -> (forall i, rp i <= lenN buf) -> (forall i, wp i <= lenN buf) ->
  Forall (sop_ok (lenN buf)) ops ->
  let '(a, xs) := sh_run ev (Shared buf rp wp) ops in
  let '(b, ys) := sh_run ev (Shared buf rp wp) (filter (matters r) ops) in
  sh_buf a = sh_buf b /\ sh_r a r = sh_r b r /\ (forall i, sh_w a i = sh_w b i) /\
  ys = map snd (filter (fun p => matters r (fst p)) (combine ops xs)).
Proof.
  intros Hl A B Ho.
  pose proof (readers_independent_gen ev (lenN buf) r ops (Shared buf rp wp) (Shared buf rp wp) Hl) as H.
  destruct (sh_run ev _ ops) as [a xs], (sh_run ev _ (filter _ ops)) as [b ys].
  destruct H as ((X & Y & Z) & E); auto; [split; [reflexivity|split; assumption]|repeat split].
Qed.

(** ** The queue *)

Definition rop_types (op : rop) : list vtype :=
  match op with
  | RRead ts => ts | RReadRange t k => repeat t k | RReadEndian n sg e => [TEnc e n sg] | _ => []
  end.
Definition plain_read (op : rop) : Prop :=
  match op with RRead _ | RReadRange _ _ | RReadEndian _ _ _ => True | _ => False end.

Lemma rop_types_ok op : plain_read op -> rop_ok op -> Forall vtype_ok (rop_types op).
Proof.
  destruct op; cbn; intros P H; try contradiction.
  - apply H.
  - apply Forall_forall. intros t0 Ht. apply repeat_spec in Ht. subst. apply H.
  - constructor; [|constructor]. unfold vtype_ok. cbn. lia.
Qed.

Lemma plain_read_char ev st op : rv_inv st -> lenN (rv_data st) < size_mod -> rop_ok op -> plain_read op ->
  rv_step ev st op =
    if lenN (rv_data st) <? rv_pos st + types_size (rop_types op) then (st, Throw out_of_range)
    else (RView (rv_data st) (rv_pos st + types_size (rop_types op)), Ok (ROVals (decode_all ev (rop_types op) (rv_rest st)))).
Proof.
  intros Hi Hl Ho P. rewrite rv_step_char by assumption. cbn zeta. destruct op; try contradiction; cbn [rop_types].
  - reflexivity.
  - now rewrite types_size_repeat.
  - assert (E : types_size [TEnc e n sg] = N.of_nat n) by (unfold types_size, value_size; cbn; lia). now rewrite E.
Qed.

Definition enc_values (ev : env) (l : list (vtype * value)) : list byte :=
  concat (map (fun p => bytes_of_value ev (fst p) (snd p)) l).
Lemma enc_values_app ev a b : enc_values ev (a ++ b) = enc_values ev a ++ enc_values ev b.
Proof. unfold enc_values. now rewrite map_app, concat_app. Qed.
Lemma enc_arg_values ev a : enc_values ev (arg_values a) = enc_arg ev a.
Proof.
  destruct a as [t v|s vs]; unfold enc_values; cbn [arg_values enc_arg].
  - cbn. apply app_nil_r.
  - rewrite map_map. reflexivity.
Qed.
Lemma enc_args_values ev args : enc_values ev (concat (map arg_values args)) = enc_args ev args.
Proof.
  induction args as [|a r IH]; [reflexivity|]. cbn [map concat]. rewrite enc_values_app, IH, enc_arg_values. reflexivity.
Qed.
Lemma arg_values_typed args : Forall arg_ok args -> Forall (fun p => typed (fst p) (snd p)) (concat (map arg_values args)).
Proof.
  induction 1 as [|a r Ha Hr IH]; [constructor|]. cbn [map concat]. apply Forall_app. split; [|exact IH].
  destruct a as [t v|s vs]; cbn [arg_values arg_ok] in *.
  - constructor; [exact Ha|constructor].
  - destruct Ha as (_ & Ha). rewrite Forall_map. exact Ha.
Qed.

Lemma slice_splice_after buf p L bs : slice buf p (lenN L) = L -> p + lenN L + lenN bs <= lenN buf ->
  slice (splice buf (p + lenN L) bs) p (lenN (L ++ bs)) = L ++ bs.
Proof.
  intros H Hl. unfold slice in *. unfold splice. rewrite lenN_app.
  assert (E : takeN (p + lenN L) buf = takeN p buf ++ L) by (rewrite takeN_plus; now rewrite H).
  rewrite E, <- app_assoc. rewrite dropN_app_exact by (rewrite lenN_takeN; lia).
  rewrite app_assoc. apply takeN_app_exact. now rewrite lenN_app.
Qed.

Definition q_inv (len p w r : N) (L : list byte) (st : shared) : Prop :=
  sh_inv len st /\ sh_w st w = p + lenN L /\ slice (sh_buf st) p (lenN L) = L /\ p <= sh_r st r /\ sh_r st r <= sh_w st w.

Lemma slice_of_log buf p L q n : slice buf p (lenN L) = L -> p <= q -> q + n <= p + lenN L ->
  takeN n (dropN q buf) = takeN n (dropN (q - p) L).
Proof.
  intros H A B. rewrite <- H at 1. unfold slice.
  replace (lenN L) with ((lenN L - (q - p)) + (q - p)) by lia.
  rewrite <- takeN_dropN_comm, dropN_dropN, takeN_takeN.
  f_equal; [lia|]. f_equal. lia.
Qed.

Lemma queue_run ev len p w r ops : forall st L st' outs, len < ptr_max -> q_inv len p w r L st ->
  Forall (sop_ok len) ops -> Forall (queue_op w r) ops -> sh_run ev st ops = (st', outs) ->
  (forall k, sh_r (fst (sh_run ev st (firstn k ops))) r <= sh_w (fst (sh_run ev st (firstn k ops))) w) ->
  let M := enc_values ev (put_values ops outs) in
  q_inv len p w r (L ++ M) st' /\ Forall (fun x => typed (fst x) (snd x)) (put_values ops outs) /\
  Forall vtype_ok (got_types r ops outs) /\
  sh_r st' r = sh_r st r + types_size (got_types r ops outs) /\
  decode_all ev (got_types r ops outs) (dropN (sh_r st r - p) (L ++ M)) = got_values r ops outs.
Proof.
  induction ops as [|o rest IH]; intros st L st' outs Hl Hq Ho Hu E Hov M; subst M.
  - cbn in E. injection E as <- <-. unfold put_values, got_types, got_values, enc_values. cbn [combine map concat decode_all].
    rewrite app_nil_r. change (types_size []) with 0. rewrite N.add_0_r. repeat (split; auto).
  - inversion Ho as [|? ? Ho1 Hor]; subst. inversion Hu as [|? ? Hu1 Hur]; subst.
    destruct Hq as (Hi & Hw & Hs & Hp & Hr). pose proof ptr_max_lt as Hm.
    destruct (sh_step_inv ev len st o Hl Hi Ho1) as (Hi1 & _ & Hb1).
    cbn [sh_run] in E. destruct (sh_step ev st o) as [st1 x] eqn:Es. cbn [fst snd] in *.
    destruct (sh_run ev st1 rest) as [st2 xs] eqn:Er. injection E as <- <-.
    assert (Hov1 : forall k, sh_r (fst (sh_run ev st1 (firstn k rest))) r <= sh_w (fst (sh_run ev st1 (firstn k rest))) w).
    { intros k. specialize (Hov (S k)). cbn [firstn sh_run] in Hov. rewrite Es in Hov.
      destruct (sh_run ev st1 (firstn k rest)). exact Hov. }
    assert (Hr1 : sh_r st1 r <= sh_w st1 w) by exact (Hov1 0%nat).
    (* the step is invisible *)
    assert (Quiet : sh_buf st1 = sh_buf st -> sh_w st1 w = sh_w st w -> sh_r st1 r = sh_r st r ->
       put_values (o :: rest) (x :: xs) = put_values rest xs -> got_types r (o :: rest) (x :: xs) = got_types r rest xs ->
       got_values r (o :: rest) (x :: xs) = got_values r rest xs ->
       let M := enc_values ev (put_values (o :: rest) (x :: xs)) in
       q_inv len p w r (L ++ M) st2 /\ Forall (fun x => typed (fst x) (snd x)) (put_values (o :: rest) (x :: xs)) /\
       Forall vtype_ok (got_types r (o :: rest) (x :: xs)) /\
       sh_r st2 r = sh_r st r + types_size (got_types r (o :: rest) (x :: xs)) /\
       decode_all ev (got_types r (o :: rest) (x :: xs)) (dropN (sh_r st r - p) (L ++ M)) = got_values r (o :: rest) (x :: xs)).
    { intros E1 E2 E3 E4 E5 E6. rewrite E4, E5, E6. rewrite <- E3. apply (IH st1 L st2 xs); try assumption.
      split; [exact Hi1|]. rewrite E1, E2, E3. auto. }
    destruct o as [i op|i op|i q|i q]; cbn [queue_op sop_ok] in *.
    + (* a read *)
      destruct (N.eqb_spec i r) as [->|Nr].
      * assert (P : plain_read op) by (destruct op; cbn in *; congruence || exact I). clear Hu1 Hb1.
        cbn [sh_step] in Es. rewrite plain_read_char in Es; try assumption;
          [|destruct Hi as (A & B & _); unfold rv_inv; cbn; rewrite A; apply B|destruct Hi as (A & _); cbn [rv_data]; rewrite A; lia].
        cbn [rv_data rv_pos] in Es. destruct Hi as (Hlen & HB & HC). rewrite Hlen in Es.
        destruct (N.ltb_spec len (sh_r st r + types_size (rop_types op))) as [T|T].
        -- injection Es as <- <-. apply Quiet; try reflexivity. cbn. unfold put_pos. now rewrite N.eqb_refl.
        -- injection Es as <- <-. cbn [sh_r sh_w sh_buf rv_data rv_pos] in *. unfold put_pos in Hr1. rewrite N.eqb_refl in Hr1.
           set (ts := rop_types op) in *.
           assert (Q1 : q_inv len p w r L (Shared (sh_buf st) (put_pos (sh_r st) r (sh_r st r + types_size ts)) (sh_w st))).
           { split; [exact Hi1|]. cbn [sh_r sh_w sh_buf]. unfold put_pos. rewrite N.eqb_refl. repeat split; try assumption. lia. }
           destruct (IH _ L st2 xs Hl Q1 Hor Hur Er Hov1) as (A & B & C & D & F).
           cbn [sh_r] in D, F. unfold put_pos in D, F. rewrite N.eqb_refl in D, F.
           assert (G1 : put_values (SR r op :: rest) (SRo (Ok (ROVals (decode_all ev ts (rv_rest (RView (sh_buf st) (sh_r st r)))))) :: xs) = put_values rest xs) by reflexivity.
           assert (G2 : got_types r (SR r op :: rest) (SRo (Ok (ROVals (decode_all ev ts (rv_rest (RView (sh_buf st) (sh_r st r)))))) :: xs) = ts ++ got_types r rest xs).
           { unfold got_types. cbn [combine map concat]. rewrite N.eqb_refl. unfold ts. destruct op; try contradiction; reflexivity. }
           assert (G3 : got_values r (SR r op :: rest) (SRo (Ok (ROVals (decode_all ev ts (rv_rest (RView (sh_buf st) (sh_r st r)))))) :: xs)
              = decode_all ev ts (dropN (sh_r st r) (sh_buf st)) ++ got_values r rest xs).
           { unfold got_values. cbn [combine map concat]. now rewrite N.eqb_refl. }
           cbn zeta. rewrite G1, G2, G3. clear G1 G2 G3. split; [exact A|]. split; [exact B|].
           split; [apply Forall_app; split; [now apply rop_types_ok|exact C]|]. rewrite types_size_app. split; [lia|].
           assert (Hsz : types_size ts <= lenN (dropN (sh_r st r - p) L)) by (rewrite lenN_dropN; lia).
           rewrite decode_all_app by (rewrite lenN_dropN, lenN_app; rewrite lenN_dropN in Hsz; lia). f_equal.
           ++ rewrite decode_all_take by (rewrite lenN_dropN, lenN_app; rewrite lenN_dropN in Hsz; lia).
              rewrite (decode_all_take ev ts (dropN (sh_r st r) (sh_buf st))) by (rewrite lenN_dropN; lia). f_equal.
              rewrite (slice_of_log (sh_buf st) p L (sh_r st r) (types_size ts)) by (assumption || lia).
              rewrite dropN_app. rewrite takeN_app. rewrite lenN_dropN in *.
              replace (types_size ts - (lenN L - (sh_r st r - p))) with 0 by lia. now rewrite takeN_0, app_nil_r.
           ++ rewrite <- F. f_equal. rewrite dropN_dropN. f_equal. lia.
      * (* another reader *)
        apply Quiet.
        -- exact Hb1.
        -- cbn [sh_step] in Es. destruct (rv_step ev _ op). injection Es as <- _. reflexivity.
        -- cbn [sh_step] in Es. destruct (rv_step ev _ op). injection Es as <- _. cbn. unfold put_pos.
           now rewrite (proj2 (N.eqb_neq r i)) by congruence.
        -- reflexivity.
        -- unfold got_types. cbn [combine map concat]. rewrite (proj2 (N.eqb_neq i r)) by exact Nr. destruct x as [[]| |]; reflexivity.
        -- unfold got_values. cbn [combine map concat]. rewrite (proj2 (N.eqb_neq i r)) by exact Nr. destruct x as [[[]| | | |]| |]; reflexivity.
    + (* a write *)
      destruct Hu1 as (-> & Ht). cbn [sh_step] in Es. destruct Hi as (Hlen & HB & HC).
      rewrite wv_throwing_char in Es; try assumption; [|unfold wv_inv; cbn; rewrite Hlen; apply HC|cbn [rv_data wv_data]; rewrite ?Hlen; lia].
      cbn [wv_data wv_pos] in Es. rewrite Hlen in Es.
      destruct (N.ltb_spec len (sh_w st w + args_size (wop_args op))) as [T|T].
      * injection Es as <- <-. apply Quiet; try reflexivity. cbn. unfold put_pos. now rewrite N.eqb_refl.
      * injection Es as <- <-. cbn [sh_r sh_w sh_buf wv_data wv_pos] in *.
        pose proof (wop_args_ok op Ho1 Ht) as Ha. pose proof (lenN_enc_args ev _ Ha) as Hea.
        set (bs := enc_args ev (wop_args op)) in *.
        assert (Q1 : q_inv len p w r (L ++ bs) (Shared (splice (sh_buf st) (sh_w st w) bs) (sh_r st) (put_pos (sh_w st) w (sh_w st w + args_size (wop_args op))))).
        { split; [exact Hi1|]. cbn [sh_r sh_w sh_buf]. unfold put_pos. rewrite N.eqb_refl. rewrite lenN_app.
          split; [lia|]. split; [|split; [assumption|lia]]. rewrite Hw, <- lenN_app. apply slice_splice_after; [exact Hs|lia]. }
        destruct (IH _ (L ++ bs) st2 xs Hl Q1 Hor Hur Er Hov1) as (A & B & C & D & F). cbn [sh_r] in D, F.
        assert (G1 : put_values (SW w op :: rest) (SWo (Ok (WOCount (args_size (wop_args op)))) :: xs)
                     = concat (map arg_values (wop_args op)) ++ put_values rest xs) by reflexivity.
        assert (G2 : got_types r (SW w op :: rest) (SWo (Ok (WOCount (args_size (wop_args op)))) :: xs) = got_types r rest xs) by reflexivity.
        assert (G3 : got_values r (SW w op :: rest) (SWo (Ok (WOCount (args_size (wop_args op)))) :: xs) = got_values r rest xs) by reflexivity.
        cbn zeta. rewrite G1, G2, G3, enc_values_app, enc_args_values. fold bs. rewrite app_assoc.
        split; [exact A|]. split; [apply Forall_app; split; [now apply arg_values_typed|exact B]|]. auto.
    + (* a jump of another reader *)
      apply Quiet.
      * exact Hb1.
      * cbn [sh_step] in Es. destruct (rv_unchecked_seek _ q); injection Es as <- _; reflexivity.
      * cbn [sh_step] in Es. destruct (rv_unchecked_seek _ q); injection Es as <- _; cbn; unfold put_pos;
          rewrite ?(proj2 (N.eqb_neq r i)) by congruence; reflexivity.
      * reflexivity.
      * reflexivity.
      * reflexivity.
    + contradiction.
Qed.

Lemma args_of_values ev l : enc_args ev (map (fun p => AVal (fst p) (snd p)) l) = enc_values ev l.
Proof. unfold enc_args, enc_values. rewrite map_map. reflexivity. Qed.

Section Start.
Context (ev : env) (buf : list byte) (p w r : N) (rp wp : N -> N) (ops : list sop) (st : shared) (outs : list sout).
Hypothesis (Hlen : lenN buf < ptr_max) (Hrp : forall i, rp i <= lenN buf) (Hwp : forall i, wp i <= lenN buf)
  (Hr : rp r = p) (Hw : wp w = p) (Hok : Forall (sop_ok (lenN buf)) ops) (Hq : Forall (queue_op w r) ops)
  (Hrun : sh_run ev (Shared buf rp wp) ops = (st, outs))
  (Hov : forall k, sh_r (fst (sh_run ev (Shared buf rp wp) (firstn k ops))) r
                   <= sh_w (fst (sh_run ev (Shared buf rp wp) (firstn k ops))) w).

Lemma queue_facts : let M := enc_values ev (put_values ops outs) in
  q_inv (lenN buf) p w r M st /\ Forall (fun x => typed (fst x) (snd x)) (put_values ops outs) /\
  Forall vtype_ok (got_types r ops outs) /\ sh_r st r = p + types_size (got_types r ops outs) /\
  decode_all ev (got_types r ops outs) M = got_values r ops outs.
Proof.
  destruct (queue_run ev (lenN buf) p w r ops (Shared buf rp wp) [] st outs) as (A & B & C & D & E); try assumption.
  - split; [split; [reflexivity|split; assumption]|]. cbn [sh_w sh_r sh_buf]. rewrite Hr, Hw, lenN_nil, N.add_0_r.
    repeat split; lia.
  - cbn [sh_r] in D, E. rewrite Hr in D, E. rewrite N.sub_diag, dropN_0 in E. cbn [app] in *. cbn zeta. auto.
Qed.

Lemma queue_log : exists log,
  args_encoding ev (map (fun x => AVal (fst x) (snd x)) (put_values ops outs)) log /\
  sh_w st w = p + lenN log /\ p <= sh_r st r /\
  decodes ev (got_types r ops outs) (takeN (sh_r st r - p) log) (got_values r ops outs).
Proof.
  destruct queue_facts as ((_ & W & _ & P & R) & B & C & D & E). set (M := enc_values ev (put_values ops outs)) in *.
  exists M. split; [|split; [exact W|split; [exact P|]]].
  - unfold M. rewrite <- args_of_values. apply args_encoding_enc. rewrite Forall_map. exact B.
  - rewrite <- E. rewrite decode_all_take by lia. replace (sh_r st r - p) with (types_size (got_types r ops outs)) by lia.
    apply decode_all_decodes; [exact C|]. rewrite lenN_takeN. lia.
Qed.

Lemma queue_fifo rest : map fst (put_values ops outs) = got_types r ops outs ++ rest ->
  got_values r ops outs = firstn (length (got_types r ops outs)) (map snd (put_values ops outs)).
Proof.
  intros H. destruct queue_facts as (_ & B & _ & _ & E). rewrite <- E. clear E.
  set (l := put_values ops outs) in *. set (ts := got_types r ops outs) in *. clearbody l ts.
  assert (G : forall tail, decode_all ev ts (enc_values ev l ++ tail) = firstn (length ts) (map snd l)).
  { clear - B H. revert l B H. induction ts as [|t ts IH]; intros l B H tail; [now destruct (map snd l)|].
    destruct l as [|[t' v] l]; [discriminate|]. cbn [map fst app] in H. injection H as <- H.
    inversion B as [|? ? B1 B2]; subst. cbn [fst snd] in B1. cbn [decode_all length firstn map snd].
    change (enc_values ev ((t', v) :: l)) with (bytes_of_value ev t' v ++ enc_values ev l).
    pose proof (lenN_bytes_of_value ev t' v B1) as Ln. rewrite <- app_assoc, takeN_app_exact, dropN_app_exact by lia. f_equal.
    - now apply value_roundtrip.
    - now apply IH. }
  rewrite <- (G []). now rewrite app_nil_r.
Qed.
End Start.
