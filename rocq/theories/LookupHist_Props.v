(** C137: a lookup table over a history of writes, and translating sequences. *)
From Coq Require Import List NArith. Import ListNotations.
From Verif Require Import Base Lookup_Model Coll_Spec ListText_Spec LookupHist_Spec LookupHist_Proofs.
Open Scope N_scope. Open Scope list_scope.

(** After any writes at() gives the last value written for the key, or the one it was made with. *)
Theorem C137_last_write : forall (K V : Type) (keq : K -> K -> bool), reflects keq -> forall ws (t : list (K * V)) k,
  lk_at keq (puts keq t ws) k = match lk_at keq t k with Ok v0 => Ok (match last_put keq k ws with Some v => v | None => v0 end) | e => e end.
Proof. exact @at_puts. Qed.
Print Assumptions C137_last_write.
(** The keys and their order never change; a key that is not among them cannot be read or written. *)
Theorem C137_keys : forall (K V : Type) (keq : K -> K -> bool) ws (t : list (K * V)), map fst (puts keq t ws) = map fst t.
Proof. exact @keys_puts. Qed.
Print Assumptions C137_keys.
Theorem C137_other_keys : forall (K V : Type) (keq : K -> K -> bool), reflects keq -> forall (t : list (K * V)) ws k v,
  (lk_at_write keq (puts keq t ws) k v = Throw out_of_range <-> ~ In k (map fst t)) /\ (lk_at keq (puts keq t ws) k = Throw out_of_range <-> ~ In k (map fst t)).
Proof. exact @put_throws. Qed.
Print Assumptions C137_other_keys.
(** Writes to different keys can be exchanged. *)
Theorem C137_commute : forall (K V : Type) (keq : K -> K -> bool), reflects keq -> forall (t : list (K * V)) k1 v1 k2 v2, k1 <> k2 ->
  put keq (put keq t (k1, v1)) (k2, v2) = put keq (put keq t (k2, v2)) (k1, v1).
Proof. exact @put_commutes. Qed.
Print Assumptions C137_commute.
(** with() gives the first key, in the order of the table, that at() now gives this value for. *)
Theorem C137_with : forall (K V : Type) (keq : K -> K -> bool), reflects keq -> forall (veq : V -> V -> bool) (t : list (K * V)) ws v k, NoDup (map fst t) ->
  lk_with veq (puts keq t ws) v = Ok k <-> exists l1 l2, map fst t = l1 ++ k :: l2 /\ (exists v', lk_at keq (puts keq t ws) k = Ok v' /\ veq v' v = true) /\
    forall k', In k' l1 -> exists v', lk_at keq (puts keq t ws) k' = Ok v' /\ veq v' v = false.
Proof. exact @with_puts. Qed.
Print Assumptions C137_with.
(** A sequence translated with at() and back with with() is the same sequence, if the values differ; it can be translated
    exactly if all of it are keys of the table. *)
Theorem C137_there_and_back : forall (K V : Type) (keq : K -> K -> bool), reflects keq -> forall veq : V -> V -> bool, reflects veq ->
  forall (t : list (K * V)) ks vs, NoDup (map snd t) -> each (lk_at keq t) ks = Ok vs -> each (lk_with veq t) vs = Ok ks.
Proof. exact @translated. Qed.
Print Assumptions C137_there_and_back.
Theorem C137_translates : forall (K V : Type) (keq : K -> K -> bool), reflects keq -> forall (t : list (K * V)) ks,
  (exists vs, each (lk_at keq t) ks = Ok vs /\ length vs = length ks /\ Forall (fun k => In k (map fst t)) ks) \/
  (each (lk_at keq t) ks = Throw out_of_range /\ exists k, In k ks /\ ~ In k (map fst t)).
Proof. exact @translate_total. Qed.
Print Assumptions C137_translates.

Example C137_nonvacuous :
  let t := lk_make (0, 0) [(1, 10); (2, 20); (3, 30)] in
  reflects N.eqb /\ NoDup (map fst t) /\ NoDup (map snd t) /\
  lk_at N.eqb (puts N.eqb t [(2, 5); (4, 6); (2, 30)]) 2 = Ok 30 /\
  lk_with N.eqb (puts N.eqb t [(2, 5); (4, 6); (2, 30)]) 30 = Ok 2 /\
  each (lk_at N.eqb t) [3; 1; 1] = Ok [30; 10; 10] /\ each (lk_with N.eqb t) [30; 10; 10] = Ok [3; 1; 1].
Proof.
  cbv zeta. split; [exact N.eqb_eq|]. assert (E : lk_make (0, 0) [(1, 10); (2, 20); (3, 30)] = [(1, 10); (2, 20); (3, 30)]) by reflexivity. rewrite E.
  split; [|split; [|repeat split]]; cbn [map fst snd]; repeat constructor; cbn; intuition discriminate.
Qed.
