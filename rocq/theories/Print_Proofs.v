(** Lemmas about printing points, ranges, ids, indices and UUIDs. *)
From Verif Require Import Base BaseFacts Io_Model Hex_Model Uuid_Model Uuid_Spec Uuid_PropLemmas Range_Model Point_Model Print_Model Geo_Spec Point_Proofs.
From Coq Require Import List. Import ListNotations.
Open Scope N_scope. Open Scope list_scope.

(** * Separators *)
Lemma occurs_cons : forall sub c s, occurs_in sub s -> occurs_in sub (c :: s).
Proof. intros sub c s (a & b & ->). exists (c :: a), b. reflexivity. Qed.
Lemma sep_split : forall a b r s, ~ occurs_in [44; 32] a -> ~ occurs_in [44; 32] b ->
  a ++ [44; 32] ++ r = b ++ [44; 32] ++ s -> a = b /\ r = s.
Proof.
  assert (Z : forall b r s, ~ occurs_in [44; 32] b -> [44; 32] ++ r = b ++ [44; 32] ++ s -> [] = b /\ r = s).
  { intros [|c [|d b]] r s N E; cbn [app] in E.
    - split; [reflexivity|congruence].
    - discriminate.
    - exfalso. apply N. exists [], b. injection E as <- <- _. reflexivity. }
  induction a as [|c a IH]; intros [|d b] r s N M E.
  - apply Z; assumption.
  - apply Z; assumption.
  - symmetry in E. destruct (Z (c :: a) s r N E) as [H ->]. split; congruence.
  - cbn [app] in E. injection E as -> E. destruct (IH b r s) as [-> ->]; auto.
    + intros H. apply N. apply occurs_cons. exact H.
    + intros H. apply M. apply occurs_cons. exact H.
Qed.
Lemma joined_inj : forall l m, l <> [] -> m <> [] ->
  Forall (fun t => ~ occurs_in [44; 32] t) l -> Forall (fun t => ~ occurs_in [44; 32] t) m ->
  joined [44; 32] l = joined [44; 32] m -> l = m.
Proof.
  induction l as [|t l IH]; intros [|u m] NL NM FL FM E; try congruence.
  inversion FL as [|? ? FL1 FL2]. inversion FM as [|? ? FM1 FM2]. subst.
  destruct l as [|t2 l], m as [|u2 m].
  - cbn [joined] in E. congruence.
  - exfalso. apply FL1. exists u, (joined [44; 32] (u2 :: m)). exact E.
  - exfalso. apply FM1. exists t, (joined [44; 32] (t2 :: l)). symmetry. exact E.
  - assert (E' : t ++ [44; 32] ++ joined [44; 32] (t2 :: l) = u ++ [44; 32] ++ joined [44; 32] (u2 :: m)) by exact E.
    destruct (sep_split _ _ _ _ FL1 FM1 E') as [-> R]. f_equal. apply IH; auto; discriminate.
Qed.
Lemma map_inj : forall V (f : V -> list N), (forall x y, f x = f y -> x = y) -> forall l m, map f l = map f m -> l = m.
Proof. intros V f I. induction l as [|x l IH]; intros [|y m] E; try discriminate; [reflexivity|]. injection E as A B. f_equal; auto. Qed.

(** * Insertions *)
Definition pad (os : ostream) (n : N) : list N := repeat (os_fill os) (N.to_nat (os_width os - n)).
Lemma put_eq : forall os t, put os t = OS 0 (os_fill os) (os_out os ++ pad os (lenN t) ++ t).
Proof. reflexivity. Qed.
Lemma put_0 : forall f o t, put (OS 0 f o) t = OS 0 f (o ++ t).
Proof. intros. unfold put. cbn [os_fill os_out os_width]. rewrite N.sub_0_l. reflexivity. Qed.

Section Elements.
Context {V : Type}.
Variable show : V -> list N.

Lemma put_rest_eq : forall n vals i f o, (i + n = length vals)%nat ->
  put_rest show (OS 0 f o) (map Some vals) i n = Ok (OS 0 f (o ++ flat_map (fun v => [44; 32] ++ show v) (skipn i vals))).
Proof.
  induction n as [|n IH]; intros vals i f o L; cbn [put_rest].
  - rewrite skipn_all2 by lia. cbn [flat_map]. rewrite app_nil_r. reflexivity.
  - destruct (nth_error vals i) as [v|] eqn:E; [|apply nth_error_None in E; lia].
    rewrite (get_map _ _ _ E). cbn [obind]. rewrite !put_0, IH by lia. do 2 f_equal.
    assert (S : skipn i vals = v :: skipn (i + 1) vals).
    { clear - E. revert i E. induction vals as [|w vals H]; intros [|i] E; try discriminate; [cbn in E; cbn; congruence|exact (H i E)]. }
    rewrite S. cbn [flat_map]. rewrite <- !app_assoc. reflexivity.
Qed.
Lemma joined_flat : forall vals v, joined [44; 32] (map show (v :: vals)) = show v ++ flat_map (fun v => [44; 32] ++ show v) vals.
Proof.
  induction vals as [|w vals IH]; intros v; [cbn [map joined flat_map]; rewrite app_nil_r; reflexivity|].
  change (joined [44; 32] (map show (v :: w :: vals))) with (show v ++ [44; 32] ++ joined [44; 32] (map show (w :: vals))).
  rewrite IH. cbn [flat_map]. rewrite <- app_assoc. reflexivity.
Qed.

Lemma point_text : forall os p v vals, is_point p (v :: vals) -> lenN (v :: vals) < 2 ^ 32 ->
  put_point show os p = Ok (OS 0 (os_fill os)
    (os_out os ++ repeat (os_fill os) (N.to_nat (os_width os - 2)) ++ [91; 32] ++ joined [44; 32] (map show (v :: vals)) ++ [32; 93])).
Proof.
  intros os p v vals P L. rewrite (point_map _ _ P). unfold put_point. rewrite (put_eq os).
  rewrite (get_map (v :: vals) 0 v eq_refl). cbn [obind]. rewrite put_0.
  assert (E : lenN (map (@Some V) (v :: vals)) = lenN (v :: vals)) by (unfold lenN; rewrite map_length; reflexivity).
  rewrite E, (proj2 (N.ltb_lt _ _) L). unfold pt_dimensions. rewrite map_length.
  rewrite put_rest_eq by (cbn [length]; lia). cbn [obind]. rewrite put_0. do 2 f_equal.
  rewrite joined_flat. change (skipn 1 (v :: vals)) with vals. rewrite <- !app_assoc. reflexivity.
Qed.
Lemma point_inj : printable show -> forall os p q vs ws out, is_point p vs -> is_point q ws -> vs <> [] -> ws <> [] ->
  lenN vs < 2 ^ 32 -> lenN ws < 2 ^ 32 -> put_point show os p = Ok out -> put_point show os q = Ok out -> vs = ws.
Proof.
  intros [I S] os p q [|v vs] [|w ws] out P Q NV NW LV LW A B; try congruence.
  rewrite (point_text _ _ _ _ P LV) in A. rewrite (point_text _ _ _ _ Q LW) in B. rewrite <- B in A. injection A as A.
  apply app_inv_head, app_inv_head in A. cbn [app] in A. injection A as A. apply app_inv_tail in A.
  apply (map_inj _ show I). apply joined_inj; try discriminate; auto; apply Forall_forall; intros t H; apply in_map_iff in H; destruct H as (x & <- & _); apply S.
Qed.

Lemma range_text : forall lk hk os r,
  put_range show lk hk os r = OS 0 (os_fill os)
    (os_out os ++ repeat (os_fill os) (N.to_nat (os_width os - 2)) ++ opening lk ++ show (vmin r) ++ [44; 32] ++ show (vmax r) ++ closing hk).
Proof.
  intros. unfold put_range. rewrite (put_eq os), !put_0. f_equal. rewrite <- !app_assoc. destruct lk, hk; reflexivity.
Qed.
Lemma range_inj : printable show -> forall os lk hk r lk' hk' r', put_range show lk hk os r = put_range show lk' hk' os r' ->
  lk = lk' /\ hk = hk' /\ r = r'.
Proof.
  intros [I S] os lk hk [a b] lk' hk' [a' b'] E. rewrite !range_text in E. cbn [vmin vmax] in E. injection E as E.
  apply app_inv_head, app_inv_head in E.
  assert (K : lk = lk' /\ show a ++ [44; 32] ++ show b ++ closing hk = show a' ++ [44; 32] ++ show b' ++ closing hk').
  { destruct lk, lk'; cbn [opening app] in E; try discriminate E; injection E as E; split; auto. }
  destruct K as [-> K]. destruct (sep_split _ _ _ _ (S a) (S a') K) as [A T].
  assert (C : show b = show b' /\ closing hk = closing hk').
  {
    assert (L : length (closing hk) = length (closing hk')) by (destruct hk, hk'; reflexivity).
    assert (M : length (show b) = length (show b')). { apply (f_equal (@length N)) in T. rewrite !app_length in T. lia. }
    clear - T M. revert M T. generalize (show b) (show b'). induction l as [|c l IH]; intros [|d m] M T; try discriminate; [split; auto|].
    cbn [app] in T. injection T as -> T. destruct (IH m) as [-> R]; auto. }
  destruct C as [B C]. repeat split; [|f_equal; auto]. destruct hk, hk'; auto; discriminate.
Qed.
End Elements.

(** * Numbers *)
Lemma numeral_step : forall q ds d, q <> 0 -> d < 10 -> numeral_of q ds -> numeral_of (10 * q + d) (ds ++ [48 + d]).
Proof.
  intros q ds d Q D (N0 & F & H & E). split; [|split; [|split]].
  - destruct ds; discriminate.
  - apply Forall_app. split; [exact F|]. constructor; [lia|constructor].
  - intros Z. exfalso. apply Q. rewrite <- E. rewrite H; [reflexivity|]. destruct ds; [congruence|exact Z].
  - rewrite fold_left_app, E. cbn [fold_left]. lia.
Qed.
Lemma digits_numeral : forall fuel n acc, n < 2 ^ N.of_nat (S fuel) -> exists ds, decimal_digits (S fuel) n acc = ds ++ acc /\ numeral_of n ds.
Proof.
  induction fuel as [|fuel IH]; intros n acc L.
  - change (2 ^ N.of_nat 1) with 2 in L. exists [48 + n]. assert (n = 0 \/ n = 1) as [-> | ->] by lia; (split; [reflexivity|]);
      (split; [discriminate|]); (split; [repeat constructor; lia|]); split; cbn; try reflexivity; discriminate.
  - remember (S fuel) as f. cbn [decimal_digits]. change (Hex_Model.ch _) with 48. pose proof (N.div_mod' n 10) as DM. pose proof (N.mod_lt n 10 ltac:(discriminate)) as ML.
    destruct (N.eqb_spec (n / 10) 0) as [E|E].
    + exists [48 + n mod 10]. split; [reflexivity|]. assert (n mod 10 = n) as -> by lia.
      split; [discriminate|]. split; [constructor; [lia|constructor]|]. split; cbn [hd fold_left]; [|lia].
      intros Z. f_equal. exact Z.
    + subst f. destruct (IH (n / 10) ((48 + n mod 10) :: acc)) as (ds & A & B).
      { rewrite Nat2N.inj_succ, N.pow_succ_r' in L. apply N.div_lt_upper_bound; [discriminate|]. lia. }
      exists (ds ++ [48 + n mod 10]). split; [rewrite A, <- app_assoc; reflexivity|].
      replace n with (10 * (n / 10) + n mod 10) at 1 by lia. apply numeral_step; assumption.
Qed.
Lemma decimal_numeral : forall n, numeral_of n (decimal n).
Proof.
  intros n. unfold decimal. destruct (digits_numeral (N.to_nat (N.size n)) n []) as (ds & E & H).
  - rewrite Nat2N.inj_succ, N2Nat.id, N.pow_succ_r'. pose proof (N.size_gt n). lia.
  - rewrite E, app_nil_r. exact H.
Qed.
Lemma decimal_inj : forall a b, decimal a = decimal b -> a = b.
Proof. intros a b E. destruct (decimal_numeral a) as (_ & _ & _ & <-). destruct (decimal_numeral b) as (_ & _ & _ & <-). rewrite E. reflexivity. Qed.
Lemma digits_no_comma : forall s, Forall (fun c => c <> 44) s -> ~ occurs_in [44; 32] s.
Proof.
  intros s F (a & b & ->). apply Forall_app in F. destruct F as [_ F]. inversion F. congruence.
Qed.
Lemma decimal_printable : printable decimal.
Proof.
  split; [exact decimal_inj|]. intros n. apply digits_no_comma. destruct (decimal_numeral n) as (_ & F & _).
  eapply Forall_impl; [|exact F]. cbv beta. intros c H. lia.
Qed.
Lemma decimal_z_printable : printable decimal_z.
Proof.
  assert (M : forall n c r, decimal n = c :: r -> 48 <= c <= 57).
  { intros n c r E. destruct (decimal_numeral n) as (_ & F & _). rewrite E in F. inversion F. assumption. }
  assert (NM : forall n t, 45 :: t <> decimal n).
  { intros n t E. symmetry in E. apply M in E. lia. }
  split.
  - intros x y E. unfold decimal_z in E. change (Hex_Model.ch _) with 45 in E.
    destruct (Z.ltb_spec x 0), (Z.ltb_spec y 0).
    + injection E as E. apply decimal_inj in E. lia.
    + exfalso. exact (NM _ _ E).
    + exfalso. symmetry in E. exact (NM _ _ E).
    + apply decimal_inj in E. lia.
  - intros z. assert (F : forall n, Forall (fun c => c <> 44) (decimal n)).
    { intros n. destruct (decimal_numeral n) as (_ & F & _). eapply Forall_impl; [|exact F]. cbv beta. intros c H. lia. }
    unfold decimal_z. change (Hex_Model.ch _) with 45. apply digits_no_comma. destruct (z <? 0)%Z; [constructor; [discriminate|]|]; apply F.
Qed.
Lemma char_printable : printable (fun c : N => [c]).
Proof. split; [intros x y E; congruence|]. intros c ([|d a] & b & E); cbn [app] in E; [discriminate|]. destruct a; discriminate. Qed.

(** * core/io.hpp *)
Lemma index_text : forall os i, exists s, numeral_of i s /\
  put_index os i = OS 0 (os_fill os) (os_out os ++ repeat (os_fill os) (N.to_nat (os_width os - lenN s)) ++ s).
Proof. intros os i. exists (decimal i). split; [apply decimal_numeral|reflexivity]. Qed.
Lemma index_inj : forall f o i j, put_index (OS 0 f o) i = put_index (OS 0 f o) j -> i = j.
Proof. intros f o i j E. unfold put_index in E. rewrite !put_0 in E. injection E as E. apply app_inv_head in E. apply decimal_inj. exact E. Qed.
(** Padding with a fill character that is no digit can be told apart. *)
Lemma index_inj_padded : forall w f o i j, ~ 48 <= f <= 57 -> put_index (OS w f o) i = put_index (OS w f o) j -> i = j.
Proof.
  intros w f o i j F E. unfold put_index, put in E. cbn [os_out os_fill os_width] in E. injection E as E. apply app_inv_head in E.
  destruct (decimal_numeral i) as (_ & A & _). destruct (decimal_numeral j) as (_ & B & _).
  apply decimal_inj. revert E A B. generalize (decimal i) (decimal j). intros s t. generalize (N.to_nat (w - lenN s)) (N.to_nat (w - lenN t)). clear - F.
  intros m. induction m as [|m IH]; intros [|n] E A B; cbn [repeat app] in E.
  - exact E.
  - exfalso. subst s. inversion A. lia.
  - exfalso. subst t. inversion B. lia.
  - injection E as E. exact (IH n E A B).
Qed.
Lemma uuid_printed : forall m w up f os u, is_uuid u ->
  put_uuid (Env m m) w (letter up f) os u = Ok (OS 0 (os_fill os)
    (os_out os ++ repeat (os_fill os) (N.to_nat (os_width os - format_length f)) ++ uuid_text up f u)).
Proof.
  intros m w up f os u U. unfold put_uuid. destruct (canonical m w u up f U) as [E L]. rewrite E. cbn [obind]. unfold put. rewrite L. reflexivity.
Qed.
Lemma uuid_printed_inj : forall m w up f os u v out, is_uuid u -> is_uuid v ->
  put_uuid (Env m m) w (letter up f) os u = Ok out -> put_uuid (Env m m) w (letter up f) os v = Ok out -> u = v.
Proof.
  intros m w up f os u v out U W A B. rewrite uuid_printed in A, B by assumption. rewrite <- B in A. injection A as A.
  apply app_inv_head, app_inv_head in A. apply (canonical_inj m w u v up f (uuid_text up f u) U W).
  - apply canonical; assumption.
  - rewrite A. apply canonical; assumption.
Qed.
