(** C75, C76, C83, C84: points, and printing points, ranges, ids, indices and UUIDs. *)
From Coq Require Import Ascii String List. Import ListNotations.
From Verif Require Import Base Io_Model Hex_Model Uuid_Model Uuid_Spec Range_Model Range_Spec Point_Model Print_Model Geo_Spec Point_Proofs Print_Proofs IntRange_Proofs.
Open Scope N_scope. Open Scope list_scope.

(** C75.  From exactly D values, by every constructor ... *)
Theorem C75_exact_values_partial : forall V D (v : V) vals, List.length (v :: vals) = D ->
  is_point (pt_of_array (v :: vals)) (v :: vals) /\
  (exists p, pt_of_list D (v :: vals) = Ok p /\ is_point p (v :: vals)) /\
  (exists p, pt_of_args D v vals = Ok p /\ is_point p (v :: vals)) /\
  (exists p, pt_nd_of_args D (v :: vals) = Ok p /\ is_point p (v :: vals)) /\
  (exists p, pt_nd_of_list D (v :: vals) = Ok p /\ is_point p (v :: vals)) /\
  is_point (pt_nd_of_array (v :: vals)) (v :: vals).
Proof. exact @exact_values. Qed.
Print Assumptions C75_exact_values_partial.
(** ... set changes one dimension, and only exists for dimensions below D ... *)
Theorem C75_set : forall V (p : point V) i v,
  ((i < pt_dimensions p)%nat -> exists q, pt_set p i v = Ok q /\ pt_dimensions q = pt_dimensions p /\
     pt_get q i = Ok v /\ forall j, j <> i -> pt_get q j = pt_get p j) /\
  ((pt_dimensions p <= i)%nat -> pt_set p i v = UB /\ pt_get p i = UB).
Proof. exact @set_one. Qed.
Print Assumptions C75_set.
(** ... so after any series of assignments each dimension holds the last value given to it ... *)
Theorem C75_history : forall V (sets : list (nat * V)) (p : point V), Forall (fun s => (fst s < pt_dimensions p)%nat) sets ->
  exists q, set_all p sets = Ok q /\ pt_dimensions q = pt_dimensions p /\
    forall i, pt_get q i = last_set i sets (pt_get p i).
Proof. exact @set_history. Qed.
Print Assumptions C75_history.
(** ... x, y, z and t are dimensions 0, 1, 2 and 3, for reading and for writing ... *)
Theorem C75_named : forall V (p : point V),
  (pt_get_dim p dim_x = pt_get p 0 /\ pt_get_dim p dim_y = pt_get p 1 /\ pt_get_dim p dim_z = pt_get p 2 /\ pt_get_dim p dim_t = pt_get p 3) /\
  forall v, pt_set_dim p dim_x v = pt_set p 0 v /\ pt_set_dim p dim_y v = pt_set p 1 v /\ pt_set_dim p dim_z v = pt_set p 2 v /\ pt_set_dim p dim_t v = pt_set p 3 v.
Proof. exact @named_dims. Qed.
Print Assumptions C75_named.
(** ... without values, [point p{}] is all zeros, and the coordinates of [point p;] cannot be used ... *)
Theorem C75_no_values_partial : forall V (zero : V) D, is_point (pt_zero zero D) (repeat zero D) /\
  forall i, pt_dimensions (@pt_default V D) = D /\ pt_get (@pt_default V D) i = UB.
Proof. exact (fun V zero D => conj (zero_point zero D) (default_point D)). Qed.
Print Assumptions C75_no_values_partial.
(** ... from an initializer list of another length: more than D values are undefined; after
    fewer the remaining dimensions cannot be used, nor the point copied unless its values
    are bytes ... *)
Theorem C75_other_values : forall V D (vals : list V) make, (0 < D)%nat -> In make [pt_of_list D; pt_nd_of_args D; pt_nd_of_list D] ->
  match Nat.leb (List.length vals) D with
  | true => exists p, make vals = Ok p /\ pt_dimensions p = D /\
      (forall i v, nth_error vals i = Some v -> pt_get p i = Ok v) /\
      (forall i, (List.length vals <= i)%nat -> pt_get p i = UB) /\
      forall byte_type, pt_copy byte_type p = (if byte_type || Nat.eqb (List.length vals) D then Ok p else UB)
  | false => make vals = UB
  end.
Proof. exact @other_values. Qed.
Print Assumptions C75_other_values.
(** ... as for the README's four-dimensional point given three values. *)
Theorem C75_wrong_count_refuted : exists p : point N, p = [Some 2; Some 3; Some 4; None] /\ pt_of_list 4 [2; 3; 4] = Ok p /\ pt_get p 3 = UB /\
  pt_of_list 2 [2; 3; 4] = UB.
Proof. exact (ex_intro _ _ (conj eq_refl (conj eq_refl (conj eq_refl eq_refl)))). Qed.
Print Assumptions C75_wrong_count_refuted.
Example C75_nonvacuous : pt_of_args 3 10 [20; 30] = Ok [Some 10; Some 20; Some 30] /\ pt_get_dim [Some 10; Some 20; Some 30] dim_z = Ok 30 /\
  pt_set_dim [Some 10; Some 20; Some 30] dim_y 7 = Ok [Some 10; Some 7; Some 30] /\ pt_get_dim [Some 10; Some 20; Some 30] dim_t = UB /\
  set_all [None; Some 1] [(0%nat, 5); (1%nat, 6); (0%nat, 7)] = Ok [Some 7; Some 6].
Proof. repeat split. Qed.

(** C76.  The text of a point; the stream's width and fill apply to the opening bracket
    alone, and every other insertion is unpadded ... *)
Theorem C76_point_text : forall V (show : V -> list N) os p v vals, is_point p (v :: vals) -> lenN (v :: vals) < 2 ^ 32 ->
  put_point show os p = Ok (OS 0 (os_fill os)
    (os_out os ++ repeat (os_fill os) (N.to_nat (os_width os - 2)) ++ txt "[ " ++ joined (txt ", ") (map show (v :: vals)) ++ txt " ]")).
Proof. exact @point_text. Qed.
Print Assumptions C76_point_text.
(** ... determines its coordinates ... *)
Theorem C76_point_injective : forall V (show : V -> list N), printable show -> forall os p q vs ws out,
  is_point p vs -> is_point q ws -> vs <> [] -> ws <> [] -> lenN vs < 2 ^ 32 -> lenN ws < 2 ^ 32 ->
  put_point show os p = Ok out -> put_point show os q = Ok out -> vs = ws.
Proof. exact @point_inj. Qed.
Print Assumptions C76_point_injective.
(** ... the text of a range ... *)
Theorem C76_range_text : forall V (show : V -> list N) lk hk os r,
  put_range show lk hk os r = OS 0 (os_fill os)
    (os_out os ++ repeat (os_fill os) (N.to_nat (os_width os - 2)) ++ opening lk ++ show (vmin r) ++ txt ", " ++ show (vmax r) ++ closing hk).
Proof. exact @range_text. Qed.
Print Assumptions C76_range_text.
(** ... determines both ends and whether they are open ... *)
Theorem C76_range_injective : forall V (show : V -> list N), printable show -> forall os lk hk r lk' hk' r',
  put_range show lk hk os r = put_range show lk' hk' os r' -> lk = lk' /\ hk = hk' /\ r = r'.
Proof. exact @range_inj. Qed.
Print Assumptions C76_range_injective.
(** ... integers, and bytes, which a narrow stream prints as characters, are printable. *)
Theorem C76_printable : printable decimal_z /\ printable decimal /\ printable (fun c : N => [c]).
Proof. exact (conj decimal_z_printable (conj decimal_printable char_printable)). Qed.
Print Assumptions C76_printable.
Example C76_nonvacuous : put_point decimal_z (OS 0 32 []) [Some (-1)%Z; Some 20%Z] = Ok (OS 0 32 (txt "[ -1, 20 ]")) /\
  put_point decimal_z (OS 4 42 (txt "p=")) [Some 5%Z] = Ok (OS 0 42 (txt "p=**[ 5 ]")) /\
  put_range decimal_z closed opened (OS 0 32 []) (VR 0%Z 10%Z) = OS 0 32 (txt "[ 0, 10 )") /\
  is_point [Some (-1)%Z; Some 20%Z] [(-1)%Z; 20%Z].
Proof. repeat split; try (vm_compute; reflexivity). exact (proj2 (map_point [(-1)%Z; 20%Z])). Qed.

(** C83.  Points are equal if all coordinates are, otherwise the first dimension where they
    differ decides; [cmp] is the elements' comparison, which may be partial ... *)
Theorem C83_comparison : forall V (cmp : V -> V -> option comparison) p q vs ws, is_point p vs -> is_point q ws -> List.length vs = List.length ws ->
  exists c, pt_cmp cmp p q = Ok c /\
    pt_eq cmp p q = Ok (match c with Some Eq => true | _ => false end) /\
    (c = Some Eq /\ agree_before cmp vs ws (List.length vs) \/ c <> Some Eq /\ exists i, decided_at cmp vs ws i c).
Proof. exact @compare_points. Qed.
Print Assumptions C83_comparison.
(** ... a total order, if the elements' comparison is. *)
Theorem C83_order : forall V cmp (ok : V -> Prop) le, ordered ok cmp le -> forall p q r us vs ws,
  is_point p us -> is_point q vs -> is_point r ws ->
  List.length us = List.length vs -> List.length vs = List.length ws -> Forall ok us -> Forall ok vs -> Forall ok ws ->
  (exists c, pt_cmp cmp p q = Ok (Some c) /\ pt_cmp cmp q p = Ok (Some (CompOpp c))) /\
  (pt_cmp cmp p q = Ok (Some Lt) -> pt_cmp cmp q r = Ok (Some Lt) -> pt_cmp cmp p r = Ok (Some Lt)) /\
  (pt_cmp cmp p q = Ok (Some Eq) -> pt_cmp cmp q r = Ok (Some Eq) -> pt_cmp cmp p r = Ok (Some Eq)) /\
  (pt_cmp cmp p q = Ok (Some Eq) -> pt_cmp cmp p r = pt_cmp cmp q r).
Proof. exact @points_ordered. Qed.
Print Assumptions C83_order.
Example C83_nonvacuous : pt_cmp zcmp [Some 15%Z; Some 20%Z; Some 25%Z] [Some 15%Z; Some 20%Z; Some 24%Z] = Ok (Some Gt) /\
  pt_cmp zcmp [Some 15%Z; Some 20%Z; Some 25%Z] [Some 15%Z; Some 21%Z; Some 24%Z] = Ok (Some Lt) /\
  pt_eq zcmp [Some 15%Z; Some 20%Z] [Some 15%Z; Some 20%Z] = Ok true /\ pt_cmp zcmp [Some 1%Z; None] [Some 1%Z; Some 2%Z] = UB /\
  ordered anything zcmp Z.le.
Proof. exact (conj eq_refl (conj eq_refl (conj eq_refl (conj eq_refl (z_ordered anything))))). Qed.

(** C84.  An index prints as the decimal numeral of its value ... *)
Theorem C84_index : forall os i, exists s, numeral_of i s /\
  put_index os i = OS 0 (os_fill os) (os_out os ++ repeat (os_fill os) (N.to_nat (os_width os - lenN s)) ++ s).
Proof. exact index_text. Qed.
Print Assumptions C84_index.
(** ... which determines it, unless it is padded with digits ... *)
Theorem C84_index_injective : forall w f o i j, w = 0 \/ ~ 48 <= f <= 57 -> put_index (OS w f o) i = put_index (OS w f o) j -> i = j.
Proof. exact (fun w f o i j H E => match H with
  | or_introl Z => index_inj f o i j (eq_ind w (fun w => put_index (OS w f o) i = put_index (OS w f o) j) E 0 Z)
  | or_intror F => index_inj_padded w f o i j F E end). Qed.
Print Assumptions C84_index_injective.
(** ... a UUID as its text in the default format, narrow and wide ... *)
Theorem C84_uuid : forall m w up f os u, is_uuid u ->
  put_uuid (Env m m) w (letter up f) os u = Ok (OS 0 (os_fill os)
    (os_out os ++ repeat (os_fill os) (N.to_nat (os_width os - format_length f)) ++ uuid_text up f u)).
Proof. exact uuid_printed. Qed.
Print Assumptions C84_uuid.
Theorem C84_uuid_injective : forall m w up f os u v out, is_uuid u -> is_uuid v ->
  put_uuid (Env m m) w (letter up f) os u = Ok out -> put_uuid (Env m m) w (letter up f) os v = Ok out -> u = v.
Proof. exact uuid_printed_inj. Qed.
Print Assumptions C84_uuid_injective.
(** ... and so an id<T>, whose value is a UUID by default. *)
Theorem C84_id : forall m w up f os u, is_uuid u ->
  put_id (put_uuid (Env m m) w (letter up f)) os u = Ok (OS 0 (os_fill os)
    (os_out os ++ repeat (os_fill os) (N.to_nat (os_width os - format_length f)) ++ uuid_text up f u)).
Proof. exact uuid_printed. Qed.
Print Assumptions C84_id.
Example C84_nonvacuous : put_index (OS 0 32 []) 18446744073709551615 = OS 0 32 (txt "18446744073709551615") /\
  put_index (OS 3 48 []) 7 = OS 0 48 (txt "007") /\ put_index (OS 0 32 []) 0 = OS 0 32 (txt "0") /\
  put_uuid (Env little little) narrow (letter true FD) (OS 40 32 []) (map byte_of_N [51; 34; 17; 0; 85; 68; 119; 102; 136; 153; 170; 187; 204; 221; 238; 255])
    = Ok (OS 0 32 (txt "    00112233-4455-6677-8899-AABBCCDDEEFF")).
Proof. vm_compute. repeat split. Qed.
