(** Proofs about [Uuid_Model]. *)
From Verif Require Import Base BaseFacts Io_Model Hex_Model Hex_Spec Hex_Proofs Uuid_Model Uuid_Spec.
From Coq Require Import Ascii String List. Import ListNotations.
Open Scope N_scope. Open Scope list_scope.

(** ** Digits *)
Lemma c_digit_digit up n : n < 16 -> c_digit up n = digit up n.
Proof.
  intros H. assert (S : forallb (fun k => (c_digit true (N.of_nat k) =? digit true (N.of_nat k))
     && (c_digit false (N.of_nat k) =? digit false (N.of_nat k))) (seq 0 16) = true) by (vm_compute; reflexivity).
  rewrite forallb_forall in S. specialize (S (N.to_nat n)). rewrite N2Nat.id in S.
  rewrite andb_true_iff, !N.eqb_eq in S. destruct S as [A B]; [apply in_seq; lia|].
  now destruct up.
Qed.

Lemma digit_value up n : n < 16 -> hex_value (digit up n) = Some n.
Proof.
  intros H. destruct up; cbn [digit]; [now apply upper_digit_value|].
  unfold lower_digit, hex_value. destruct (N.ltb_spec n 10).
  - rewrite (proj2 (N.leb_le 48 (48 + n))), (proj2 (N.leb_le (48 + n) 57)) by lia. cbn [andb]. f_equal. lia.
  - rewrite (proj2 (N.leb_le 48 (87 + n))), (proj2 (N.leb_gt (87 + n) 57)) by lia. cbn [andb].
    rewrite (proj2 (N.leb_le 65 (87 + n))), (proj2 (N.leb_gt (87 + n) 70)) by lia. cbn [andb].
    rewrite (proj2 (N.leb_le 97 (87 + n))), (proj2 (N.leb_le (87 + n) 102)) by lia. cbn [andb]. f_equal. lia.
Qed.

(** The [w] lowest hex digits of [v], most significant first. *)
Fixpoint fixed (up : bool) (w : nat) (v : N) : list N :=
  match w with O => [] | S k => fixed up k (v / 16) ++ [digit up (v mod 16)] end.

Lemma fixed_length up w : forall v, length (fixed up w v) = w.
Proof. induction w; intros v; [reflexivity|]. cbn [fixed]. rewrite app_length, IHw. cbn. lia. Qed.

Lemma c_hex_acc up fuel : forall v acc, c_hex up fuel v acc = c_hex up fuel v [] ++ acc.
Proof.
  induction fuel; intros v acc; [reflexivity|]. cbn [c_hex].
  destruct (v <? 16); [reflexivity|]. rewrite IHfuel. rewrite (IHfuel _ [_]). now rewrite <- app_assoc.
Qed.

Lemma fixed_0 up w : fixed up w 0 = repeat (ch "0") w.
Proof.
  induction w; [reflexivity|]. cbn [fixed]. change (0 / 16) with 0. rewrite IHw.
  replace (digit up (0 mod 16)) with (ch "0") by (destruct up; reflexivity).
  symmetry. apply repeat_cons.
Qed.

Lemma c_hex_fixed up : forall w fuel v, (0 < w)%nat -> v < 16 ^ N.of_nat w -> v < 16 ^ N.of_nat fuel ->
  let t := c_hex up fuel v [] in
  (length t <= w)%nat /\ repeat (ch "0") (w - length t) ++ t = fixed up w v.
Proof.
  induction w as [|w IH]; intros fuel v W V F; [lia|].
  destruct fuel as [|fuel].
  { change (16 ^ N.of_nat 0) with 1 in F. assert (v = 0) by lia. subst v.
    cbn [c_hex length]. split; [lia|]. rewrite fixed_0, app_nil_r, Nat.sub_0_r. reflexivity. }
  cbn [c_hex]. destruct (N.ltb_spec v 16) as [L|L].
  - cbn [length]. split; [lia|]. cbn [fixed]. rewrite N.div_small, N.mod_small by lia.
    rewrite fixed_0. replace (S w - 1)%nat with w by lia. now rewrite c_digit_digit.
  - rewrite c_hex_acc.
    assert (w <> 0)%nat. { intros ->. change (16 ^ N.of_nat 1) with 16 in V. lia. }
    replace (N.of_nat (S w)) with (N.succ (N.of_nat w)) in V by lia.
    replace (N.of_nat (S fuel)) with (N.succ (N.of_nat fuel)) in F by lia.
    rewrite N.pow_succ_r' in V, F.
    destruct (IH fuel (v / 16)) as [A B]; [lia|apply N.div_lt_upper_bound; lia|apply N.div_lt_upper_bound; lia|].
    rewrite app_length. cbn [length]. split; [lia|]. cbn [fixed].
    rewrite <- B, c_digit_digit by (apply N.mod_lt; lia).
    rewrite <- app_assoc. f_equal. f_equal. lia.
Qed.

Lemma size_nat_bound v : v < 16 ^ N.of_nat (S (N.size_nat v)).
Proof.
  assert (v < 2 ^ N.of_nat (N.size_nat v)).
  { replace (N.of_nat (N.size_nat v)) with (N.size v).
    - apply N.size_gt.
    - destruct v as [|p]; [reflexivity|]. cbn. rewrite <- (N2Nat.id (Npos (Pos.size p))). f_equal.
      induction p; cbn in *; try reflexivity; rewrite Pos2Nat.inj_succ; congruence. }
  eapply N.lt_le_trans; [eassumption|].
  transitivity (16 ^ N.of_nat (N.size_nat v)).
  - apply N.pow_le_mono_l. lia.
  - apply N.pow_le_mono_r; lia.
Qed.

Lemma c_hex_padded_fixed up w v : 0 < w -> v < 16 ^ w -> c_hex_padded up w v = fixed up (N.to_nat w) v.
Proof.
  intros W V. unfold c_hex_padded.
  destruct (c_hex_fixed up (N.to_nat w) (S (N.size_nat v)) v) as [A B].
  - lia. - now rewrite N2Nat.id. - apply size_nat_bound.
  - rewrite <- B at 1. f_equal. f_equal. unfold lenN. lia.
Qed.

Definition pair_of (up : bool) (b : byte) : list N :=
  [digit up (Byte.to_N b / 16); digit up (Byte.to_N b mod 16)].

Lemma fixed_le_num up : forall bs, fixed up (2 * length bs) (le_num bs) = flat_map (pair_of up) (rev bs).
Proof.
  induction bs as [|b r IH]; [reflexivity|].
  replace (2 * length (b :: r))%nat with (S (S (2 * length r))) by (cbn [length]; lia).
  cbn [fixed le_num rev]. pose proof (to_N_lt b) as B.
  set (x := Byte.to_N b) in *.
  assert (E1 : (x + 256 * le_num r) / 16 = x / 16 + 16 * le_num r).
  { symmetry. apply (N.div_unique _ 16 _ (x mod 16)); [apply N.mod_lt; lia|].
    pose proof (N.div_mod x 16). lia. }
  assert (E2 : (x + 256 * le_num r) mod 16 = x mod 16).
  { replace (x + 256 * le_num r) with (x + (16 * le_num r) * 16) by lia. apply N.mod_add. lia. }
  assert (S16 : x / 16 < 16) by (apply N.div_lt_upper_bound; lia).
  rewrite E1, E2.
  replace ((x / 16 + 16 * le_num r) / 16) with (le_num r).
  2:{ apply (N.div_unique _ 16 _ (x / 16)); lia. }
  replace ((x / 16 + 16 * le_num r) mod 16) with (x / 16).
  2:{ apply (N.mod_unique _ 16 (le_num r)); lia. }
  rewrite IH, flat_map_app. cbn [flat_map pair_of app]. rewrite <- app_assoc. reflexivity.
Qed.

Lemma le_num_bound : forall bs, le_num bs < 256 ^ lenN bs.
Proof.
  induction bs as [|b r IH]; [reflexivity|]. cbn [le_num]. rewrite lenN_cons, N.pow_add_r.
  change (256 ^ 1) with 256. pose proof (to_N_lt b). lia.
Qed.

Lemma padded_bytes up w bs : bs <> [] -> w = 2 * lenN bs ->
  c_hex_padded up w (le_num bs) = flat_map (pair_of up) (rev bs).
Proof.
  intros NE ->. assert (0 < lenN bs) by (unfold lenN; destruct bs; cbn; [congruence|lia]).
  rewrite c_hex_padded_fixed; [|lia|].
  - rewrite <- fixed_le_num. f_equal. unfold lenN. lia.
  - rewrite N.pow_mul_r. change (16 ^ 2) with 256. apply le_num_bound.
Qed.

Lemma padded_byte up b : c_hex_padded up 2 (Byte.to_N b) = pair_of up b.
Proof.
  pose proof (padded_bytes up 2 [b] ltac:(discriminate) ltac:(reflexivity)) as H.
  cbn [le_num] in H. rewrite N.mul_0_r, N.add_0_r in H. rewrite H. cbn [rev app flat_map]. apply app_nil_r.
Qed.

(** ** Printing *)
Definition the_fmt (up : bool) (f : uformat) : ufmt :=
  match f, up with
  | FN, true => fmt_N | FN, false => fmt_n | FD, true => fmt_D | FD, false => fmt_d
  | FB, true => fmt_B | FB, false => fmt_b | FP, true => fmt_P | FP, false => fmt_p
  | FX, true => fmt_X | FX, false => fmt_x
  end.
Lemma print_format_letter up f : print_format (letter up f) = Some (the_fmt up f).
Proof. destruct up, f; reflexivity. Qed.
Lemma parse_format_letter up f : parse_format (letter up f) = Some (the_fmt true f).
Proof. destruct up, f; reflexivity. Qed.
Lemma the_fmt_size up f : f_size (the_fmt up f) = format_length f.
Proof. destruct up, f; reflexivity. Qed.

Ltac uuid_cases u H :=
  unfold is_uuid in H;
  do 16 (destruct u as [|? u]; [discriminate H|]); destruct u; [clear H|discriminate H].

Definition print_args (u : list byte) : list N :=
  le_num (firstn 4 u) :: le_num (firstn 2 (skipn 4 u)) :: le_num (firstn 2 (skipn 6 u))
  :: map Byte.to_N (skipn 8 u).

Lemma value_N_le m n bs : length bs = n ->
  value_N (value_of_bytes (Env m m) (TEnc little n false) bs) = le_num bs.
Proof.
  intros L. unfold value_of_bytes, byte_begin_order, of_mem, int_of_mem, value_N. cbn [configured machine andb].
  destruct m; cbn [endian_eqb]; rewrite ?rev_involutive; apply N2Z.id.
Qed.

Lemma read_args m u : is_uuid u ->
  (let! (d1, p1) := unchecked_read (Env m m) (TEnc little 4 false) u 0 in
   let! (d2, p2) := unchecked_read (Env m m) (TEnc little 2 false) u p1 in
   let! (d3, p3) := unchecked_read (Env m m) (TEnc little 2 false) u p2 in
   let! d4 := load u 8 8 in
   Ok (value_N d1 :: value_N d2 :: value_N d3 :: map Byte.to_N d4)) = Ok (print_args u).
Proof.
  intros H. uuid_cases u H.
  lazy -[value_of_bytes value_N Byte.to_N le_num].
  rewrite !value_N_le by reflexivity. reflexivity.
Qed.

Lemma format_text up f u : is_uuid u ->
  c_format (f_format (the_fmt up f)) (print_args u) = Ok (uuid_text up f u).
Proof.
  intros H. uuid_cases u H.
  unfold print_args, uuid_text, uuid_digits, text_order.
  cbn [firstn skipn map nth].
  destruct f, up; cbn [the_fmt];
    (match goal with |- c_format ?x ?y = _ => let x' := eval vm_compute in x in change x with x' end;
     lazy beta iota zeta delta [c_format ch N_of_ascii N_of_digits N.eqb Pos.eqb andb orb obind
       N.sub Pos.sub_mask Pos.double_mask Pos.succ_double_mask Pos.double_pred_mask Pos.pred_double
       N.add N.mul Pos.add Pos.mul Pos.succ];
     rewrite !padded_byte;
     repeat match goal with |- context [c_hex_padded ?b ?w (le_num ?l)] =>
        rewrite (padded_bytes b w l) by (discriminate || reflexivity) end;
     lazy -[digit N.div N.modulo Byte.to_N]; reflexivity).
Qed.

Lemma pair_of_hex up b : Forall is_hex (pair_of up b).
Proof.
  pose proof (to_N_lt b). unfold pair_of.
  constructor; [|constructor; [|constructor]]; unfold is_hex; rewrite digit_value; try discriminate.
  - apply N.div_lt_upper_bound; lia.
  - apply N.mod_lt; lia.
Qed.

Lemma flat_pair_length up bs : length (flat_map (pair_of up) bs) = (2 * length bs)%nat.
Proof. induction bs; [reflexivity|]. cbn [flat_map]. rewrite app_length, IHbs. cbn [pair_of length]. lia. Qed.

Lemma flat_pair_hex up bs : Forall is_hex (flat_map (pair_of up) bs).
Proof. induction bs; [constructor|]. cbn [flat_map]. apply Forall_app. auto using pair_of_hex. Qed.

Lemma flat_pair_nth up bs : forall i b, nth_error bs i = Some b ->
  nth_error (flat_map (pair_of up) bs) (2 * i)%nat = Some (digit up (Byte.to_N b / 16)) /\
  nth_error (flat_map (pair_of up) bs) (2 * i + 1)%nat = Some (digit up (Byte.to_N b mod 16)).
Proof.
  induction bs as [|x r IH]; intros [|i] b E; try discriminate.
  - injection E as ->. split; reflexivity.
  - cbn [nth_error] in E. destruct (IH i b E) as [A B].
    replace (2 * S i)%nat with (S (S (2 * i))) by lia.
    replace (S (S (2 * i)) + 1)%nat with (S (S (2 * i + 1))) by lia.
    cbn [flat_map pair_of app nth_error]. auto.
Qed.

Lemma flat_pair_denotes up bs : denotes (flat_map (pair_of up) bs) bs.
Proof.
  split; [apply flat_pair_length|]. intros i b E. destruct (flat_pair_nth up bs i b E) as [A B].
  pose proof (to_N_lt b).
  exists (digit up (Byte.to_N b / 16)), (digit up (Byte.to_N b mod 16)), (Byte.to_N b / 16), (Byte.to_N b mod 16).
  repeat split; auto.
  - apply digit_value. apply N.div_lt_upper_bound; lia.
  - apply digit_value. apply N.mod_lt. lia.
  - apply N.div_mod. lia.
Qed.

Lemma uuid_digits_length up u : length (uuid_digits up u) = 32%nat.
Proof. unfold uuid_digits. fold (pair_of up). rewrite (flat_pair_length up). reflexivity. Qed.
Lemma uuid_digits_hex up u : Forall is_hex (uuid_digits up u).
Proof. apply (flat_pair_hex up). Qed.
Lemma uuid_digits_denotes up u : denotes (uuid_digits up u) (text_order u).
Proof. apply (flat_pair_denotes up). Qed.

Ltac cases32 ds L :=
  do 32 (destruct ds as [|? ds]; [discriminate L|]); destruct ds; [clear L|discriminate L].

Lemma layout_length f ds : length ds = 32%nat -> lenN (layout f ds) = format_length f.
Proof. intros L. cases32 ds L. destruct f; reflexivity. Qed.

Lemma hex_nonzero c : is_hex c -> c <> 0.
Proof. intros H ->. apply H. reflexivity. Qed.

Lemma Forall_part (P : N -> Prop) ds i n : Forall P ds -> Forall P (part ds i n).
Proof.
  intros H. unfold part. rewrite Forall_forall in *. intros x I. apply H.
  rewrite <- (firstn_skipn i ds). apply in_or_app. right.
  rewrite <- (firstn_skipn n (skipn i ds)). apply in_or_app. now left.
Qed.

Lemma layout_nonzero f ds : Forall is_hex ds -> Forall (fun c => c <> 0) (layout f ds).
Proof.
  intros H. assert (Z : Forall (fun c => c <> 0) ds) by (eapply Forall_impl; [|exact H]; intros; now apply hex_nonzero).
  assert (D : forall i n, Forall (fun c => c <> 0) (part ds i n)) by (intros; now apply Forall_part).
  destruct f; unfold layout, dashed; auto;
  repeat (apply Forall_app; split); auto;
  repeat (constructor; [vm_compute; discriminate|]); constructor.
Qed.

Lemma c_str_app s r : Forall (fun c => c <> 0) s -> c_str (s ++ 0 :: r) = Ok s.
Proof.
  induction 1 as [|c s Hc Hs IH]; [reflexivity|]. cbn [app c_str].
  rewrite (proj2 (N.eqb_neq _ _) Hc). now rewrite IH.
Qed.

Lemma snprintf_fits w buf n f args t : c_format f args = Ok t -> lenN t < n -> n <= lenN buf ->
  c_snprintf w buf n f args = (t ++ [0] ++ dropN (lenN t + 1) buf, Ok tt).
Proof.
  intros E A B. unfold c_snprintf. rewrite E. rewrite (proj2 (N.eqb_neq n 0)) by lia.
  destruct w.
  - rewrite takeN_all by lia. unfold store_chars. rewrite lenN_app. change (lenN [0]) with 1.
    rewrite (proj2 (N.leb_le _ _)) by lia. now rewrite <- app_assoc.
  - rewrite (proj2 (N.ltb_lt _ _)) by lia. unfold store_chars. rewrite lenN_app. change (lenN [0]) with 1.
    rewrite (proj2 (N.leb_le _ _)) by lia. now rewrite <- app_assoc.
Qed.

Lemma uuid_text_length up f u : lenN (uuid_text up f u) = format_length f.
Proof. apply layout_length, uuid_digits_length. Qed.

Lemma format_length_bounds f : 32 <= format_length f <= 68.
Proof. destruct f; cbn; lia. Qed.

Lemma to_c_str_fmt_char m w u up f buf max : is_uuid u -> max <= lenN buf ->
  to_c_str_fmt (Env m m) w u (the_fmt up f) buf max =
    if max <? format_length f + 1 then (buf, Ok false)
    else (uuid_text up f u ++ [0] ++ dropN (format_length f + 1) buf, Ok true).
Proof.
  intros U B. unfold to_c_str_fmt. rewrite the_fmt_size. pose proof (format_length_bounds f).
  rewrite sz_add_small by (rewrite size_mod_val; lia).
  destruct (N.ltb_spec max (format_length f + 1)); [reflexivity|].
  rewrite read_args by assumption. 
  rewrite (snprintf_fits w buf max _ _ _ (format_text up f u U)); rewrite ?uuid_text_length; try lia.
  reflexivity.
Qed.

Lemma to_string_char m w u up f : is_uuid u ->
  to_string (Env m m) w u (letter up f) = Ok (uuid_text up f u).
Proof.
  intros U. unfold to_string. rewrite print_format_letter. unfold to_string_fmt.
  change (f_size fmt_X) with 68.
  rewrite to_c_str_fmt_char; [|assumption|rewrite lenN_repeat; lia].
  pose proof (format_length_bounds f). rewrite (proj2 (N.ltb_ge _ _)) by lia.
  cbn [app]. apply c_str_app. apply layout_nonzero, uuid_digits_hex.
Qed.

Lemma snprintf_any w buf n f args t : c_format f args = Ok t -> lenN t < n ->
  c_snprintf w buf n f args =
    if lenN buf <? lenN t + 1 then (buf, UB) else (t ++ [0] ++ dropN (lenN t + 1) buf, Ok tt).
Proof.
  intros E A. unfold c_snprintf. rewrite E. rewrite (proj2 (N.eqb_neq n 0)) by lia.
  destruct w; [rewrite takeN_all by lia|rewrite (proj2 (N.ltb_lt _ _)) by lia];
    unfold store_chars; rewrite lenN_app; change (lenN [0]) with 1;
    (destruct (N.ltb_spec (lenN buf) (lenN t + 1)); [now rewrite (proj2 (N.leb_gt _ _)) by lia|]);
    (rewrite (proj2 (N.leb_le _ _)) by lia); now rewrite <- app_assoc.
Qed.

Lemma to_c_str_char m w u up f buf max : is_uuid u ->
  to_c_str (Env m m) w u buf max (letter up f) =
    if max <? format_length f + 1 then (buf, Ok false)
    else if lenN buf <? format_length f + 1 then (buf, UB)
    else (uuid_text up f u ++ [0] ++ dropN (format_length f + 1) buf, Ok true).
Proof.
  intros U. unfold to_c_str. rewrite print_format_letter.
  unfold to_c_str_fmt. rewrite the_fmt_size. pose proof (format_length_bounds f).
  rewrite sz_add_small by (rewrite size_mod_val; lia).
  destruct (N.ltb_spec max (format_length f + 1)); [reflexivity|].
  rewrite read_args by assumption.
  rewrite (snprintf_any w buf max _ _ _ (format_text up f u U)); rewrite ?uuid_text_length; [|lia].
  destruct (_ <? _); reflexivity.
Qed.


Lemma text_order_inj u v : is_uuid u -> is_uuid v -> text_order u = text_order v -> u = v.
Proof.
  intros U V E. uuid_cases u U. uuid_cases v V.
  unfold text_order in E. cbn [map nth] in E. injection E; intros; subst; reflexivity.
Qed.

Lemma layout_inj f ds es : length ds = 32%nat -> length es = 32%nat -> layout f ds = layout f es -> ds = es.
Proof.
  intros L M E. cases32 ds L. cases32 es M.
  destruct f; cbn in E; injection E; intros; subst; reflexivity.
Qed.

Lemma uuid_text_inj up f u v : is_uuid u -> is_uuid v -> uuid_text up f u = uuid_text up f v -> u = v.
Proof.
  intros U V E. apply layout_inj in E; [|apply uuid_digits_length..].
  apply text_order_inj; auto.
  pose proof (uuid_digits_denotes up u) as A. pose proof (uuid_digits_denotes up v) as B. rewrite <- E in B.
  apply denotes_decode in A, B. destruct A, B. congruence.
Qed.
