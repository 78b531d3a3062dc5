(** Programs that save a collection of identifiable items through a view and load it again. *)
From Coq Require Import List. Import ListNotations.
From Verif Require Import Base Io_Model Io_Spec IoView_Model IoView_Spec Ident_Model Coll_Spec.
Local Open Scope N_scope.

(** An item is saved as its id and its data, unsigned integers of these numbers of bytes in this byte order. *)
Record layout := Layout { l_order : endian; l_id : nat; l_data : nat }.
Definition layout_ok (F : layout) : Prop :=
  (0 < l_id F)%nat /\ (0 < l_data F)%nat /\ N.of_nat (l_id F) + N.of_nat (l_data F) < ptr_max.
Definition id_type (F : layout) : vtype := TEnc (l_order F) (l_id F) false.
Definition data_type (F : layout) : vtype := TEnc (l_order F) (l_data F) false.
Definition item_size (F : layout) : N := N.of_nat (l_id F) + N.of_nat (l_data F).
Definition item_fits (F : layout) (it : item) : Prop :=
  it_id it < 256 ^ N.of_nat (l_id F) /\ it_data it < 256 ^ N.of_nat (l_data F).

(** for (auto& item : collection) view.write(item.id(), item.data()) *)
Definition item_args (F : layout) (it : item) : list warg :=
  [AVal (id_type F) (VInt (Z.of_N (it_id it))); AVal (data_type F) (VInt (Z.of_N (it_data it)))].
Definition save (b : build) (ev : env) (F : layout) (c : coll) (v : wview) : outcome (wview * list (outcome wout)) :=
  let! items := ic_iterate b c in Ok (wv_run ev v (map (fun it => WWrite (item_args F it)) items)).

(** for (;;) { auto [id, data] = view.read<...>(); collection.try_insert(item{id, data}); } until the read throws
    out_of_range *)
Fixpoint load (b : build) (ev : env) (F : layout) (rounds : nat) (v : rview) (c : coll) : outcome unit * coll :=
  match rounds with
  | O => (Diverge, c)
  | S rounds =>
      match rv_step ev v (RRead [id_type F; data_type F]) with
      | (v, Ok (ROVals [VInt i; VInt d])) =>
          match ic_try_insert b c (mk_item (Z.to_N i) (Z.to_N d)) all_ok with
          | (Ok _, c) => load b ev F rounds v c
          | (_, c) => (UB, c)
          end
      | (_, Throw out_of_range) => (Ok tt, c)
      | _ => (UB, c)
      end
  end.

(** Of several items with the same id the first. *)
Fixpoint firsts (l : list item) : list item :=
  match l with
  | [] => []
  | it :: r => it :: filter (fun x => negb (it_id x =? it_id it)) (firsts r)
  end.

(** Whatever is asked of the collection is answered as the list says. *)
Definition holds (b : build) (c : coll) (l : list item) : Prop :=
  ic_iterate b c = Ok l /\ ic_size c = lenN l /\
  (forall id, ic_contains c id = existsb (fun it => it_id it =? id) l) /\
  (forall id, ic_at_id c id = match find (fun it => it_id it =? id) l with Some it => Ok it | None => Throw out_of_range end) /\
  (forall i, ic_at_index c i = match nth_error l (N.to_nat i) with Some it => Ok it | None => Throw out_of_range end).
