(** C103: iterators of static_vectors that are kept while the vectors change. *)
From Coq Require Import List. Import ListNotations.
From Verif Require Import Base Iter_Model Sv_Model Coll_Spec SvIter_Model SvIter_Spec SvIter_Proofs.

(** C103: in a release build every program of operations on vectors and kept iterators that
    meets the preconditions shows what it shows for lists and indices into them, and leaves
    the vectors with the elements of the lists. *)
Theorem C103_release_partial : forall (V : Type) (cap : N) (moved : V -> V) (veq : V -> V -> bool) (ops : list (iop V)) (xs : list (iobs V)) (s : lists),
  cap < 2 ^ 63 -> list_run (list_step cap moved veq) ops no_elements = Some (xs, s) ->
  exists h, iv_run Release cap moved veq ops (iv_start cap) = (xs, h) /\ forall i, shows cap (fst h i) (fst s i).
Proof. exact release_refines. Qed.
Print Assumptions C103_release_partial.

(** C103: any build does the same, but for the assertions of a debug build: these fail
    exactly at the operations [reported] names, and a failure changes nothing. *)
Theorem C103_builds_partial : forall (V : Type) (b : build) (cap : N) (moved : V -> V) (veq : V -> V -> bool) (ops : list (iop V)) (xs : list (iobs V)) (s : lists),
  cap < 2 ^ 63 -> list_run (build_step cap moved veq b) ops no_elements = Some (xs, s) ->
  exists h, iv_run b cap moved veq ops (iv_start cap) = (xs, h) /\ forall i, shows cap (fst h i) (fst s i).
Proof. exact builds_refine. Qed.
Print Assumptions C103_builds_partial.

(** C103 is false of debug builds: an iterator made before a [push_back] cannot be moved past
    the old end, nor jump to the new element, though both are valid. *)
Theorem C103_debug_refuted : forall b, b <> Release -> exists ops1 ops2 : list (iop N),
  let it_fails ops := exists xs s, list_run (list_step 3 (fun x => x) N.eqb) ops no_elements = Some (xs, s) /\
    last xs (OMove UB) = OMove (Ok tt) /\
    last (fst (iv_run b 3 (fun x => x) N.eqb ops (iv_start 3))) (OMove UB) = OMove (failure b) in
  it_fails ops1 /\ it_fails ops2.
Proof. exact debug_refuted. Qed.
Print Assumptions C103_debug_refuted.

(** Iterators made when the vector had one element, used after two pushes, a write through
    one of them, a swap and a shrink. *)
Definition C103_program : list (iop N) :=
  [IVec (SPush 0 7 None); IBegin 0 0; IVec (SPush 0 8 None); IVec (SPush 0 9 None); IPlus 0 1 2; IRead 1;
   IPostDec 1 2; IWrite 1 5; IVec (SIter 0); IDist 2 0; IComp 1 2; IVec (SInit 1 [1; 2] None); IVec (SSwap 0 1); IRead 1; IReadAt 1 (-1);
   IInc 1; IEnd 3 0; ISame 1 3; IVec (SIter 1)].
Example C103_nonvacuous :
  exists s, list_run (list_step 3 (fun x => x) N.eqb) C103_program no_elements =
    Some ([OVec (ODone (Ok tt)); OMove (Ok tt); OVec (ODone (Ok tt)); OVec (ODone (Ok tt)); OMove (Ok tt); OElem (Ok 9);
           OMove (Ok tt); OMove (Ok tt); OVec (OList (Ok [7; 5; 9])); ODist (Ok 2%Z); OComp (Ok Lt); OVec (ODone (Ok tt)); OVec (ODone (Ok tt));
           OElem (Ok 2); OElem (Ok 1); OMove (Ok tt); OMove (Ok tt); OSame (Ok true); OVec (OList (Ok [7; 5; 9]))], s)
  /\ exists s', list_run (build_step 3 (fun x => x) N.eqb DebugThrow) [IVec (SPush 0 7 None); IBegin 0 0; IVec (SPush 0 8 None); IInc 0; IRead 0; IInc 0; IDec 0; IRead 0] no_elements =
    Some ([OVec (ODone (Ok tt)); OMove (Ok tt); OVec (ODone (Ok tt)); OMove (Ok tt); OElem (Ok 8); OMove (Throw logic_error); OMove (Ok tt); OElem (Ok 7)], s').
Proof.
  eexists. split; [|eexists]; match goal with |- ?x = _ => let y := eval vm_compute in x in exact (eq_refl y) end.
Qed.
