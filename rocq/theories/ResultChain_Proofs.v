(** Proofs about chains of results. *)
From Coq Require Import List Lia. Import ListNotations.
From Verif Require Import Base Result_Model ResultChain_Spec.

Section Chain.
Context {V E : Type}.
Notation res := (var V E).
Definition num {A} k (l : list A) := combine (seq k (length l)) l.
Lemma num_cons {A} k (a : A) l : num k (a :: l) = (k, a) :: num (S k) l. Proof. reflexivity. Qed.
Lemma throws_dec {A} (fs : list (stage (V := V) (E := E) A)) : no_copy_throws fs \/ ~ no_copy_throws fs.
Proof.
  induction fs as [|(f, t) q IH]; [left; constructor|]. destruct t; [right; intros K; discriminate (Forall_inv K)|].
  destruct IH as [I|I]; [left; now constructor|right; intros K; exact (I (Forall_inv_tail K))].
Qed.
Lemma then_skip fs : forall k (r : res) calls, r_ok r = false ->
  exists out, then_chain k fs r calls = (out, calls) /\ passed_on (Ok r) fs out.
Proof.
  induction fs as [|(f, t) q IH]; intros k r calls H; cbn [then_chain].
  - exists (Ok r). split; [reflexivity|]. split; [reflexivity|]. intros K. destruct K. constructor.
  - unfold r_and_then. rewrite H. destruct t.
    + exists (Throw user_exn). split; [reflexivity|]. split; [|reflexivity]. intros K. discriminate (Forall_inv K).
    + destruct (IH (S k) r calls H) as (out & A & B & C). exists out. split; [exact A|]. split; intros K.
      * apply B. exact (Forall_inv_tail K).
      * apply C. intros K'. apply K. now constructor.
Qed.
Lemma else_skip fs : forall k (v : V) calls,
  exists out, else_chain (E := E) k fs (Val v) calls = (out, calls) /\ passed_on (Ok (Val v)) fs out.
Proof.
  induction fs as [|(f, t) q IH]; intros k v calls; cbn [else_chain].
  - exists (Ok (Val v)). split; [reflexivity|]. split; [reflexivity|]. intros K. destruct K. constructor.
  - unfold r_or_else. cbn [r_ok]. destruct t.
    + exists (Throw user_exn). split; [reflexivity|]. split; [|reflexivity]. intros K. discriminate (Forall_inv K).
    + destruct (IH (S k) v calls) as (out & A & B & C). exists out. split; [exact A|]. split; intros K.
      * apply B. exact (Forall_inv_tail K).
      * apply C. intros K'. apply K. now constructor.
Qed.
Lemma then_any fs : forall k (v : V) calls,
  (exists args w, all_pass (E := E) fs v args w /\ then_chain k fs (Val v) calls = (Ok (Val w), calls ++ num k args)) \/
  (exists before f t after args w out, fs = before ++ (f, t) :: after /\ all_pass before v args w /\ ~ is_value (f w) /\
     then_chain k fs (Val v) calls = (out, calls ++ num k (args ++ [w])) /\ passed_on (f w) after out).
Proof.
  induction fs as [|(f, t) q IH]; intros k v calls.
  - left. exists [], v. split; [constructor|]. cbn. now rewrite app_nil_r.
  - cbn [then_chain]. unfold r_and_then. cbn [r_ok r_value noexcept].
    assert (STOP : forall x, f v = x -> (forall r', x <> Ok r') ->
      exists before f0 t0 after args w out, (f, t) :: q = before ++ (f0, t0) :: after /\ all_pass before v args w /\ ~ is_value (f0 w) /\
        (x, calls ++ [(k, v)]) = (out, calls ++ num k (args ++ [w])) /\ passed_on (f0 w) after out).
    { intros x Ex Nx. exists [], f, t, q, [], v, x. rewrite Ex. split; [reflexivity|]. split; [constructor|]. split; [intros (u & K); exact (Nx _ K)|].
      split; [reflexivity|]. destruct x; [destruct (Nx a eq_refl)|reflexivity|reflexivity|reflexivity|reflexivity]. }
    destruct (f v) as [r'|x| | |] eqn:F; [|right; apply STOP; [reflexivity|discriminate]..].
    destruct r' as [u|e|].
    + destruct (IH (S k) u (calls ++ [(k, v)])) as [(args & w & A & B)|(before & f0 & t0 & after & args & w & out & A & B & C & D & G)].
      * left. exists (v :: args), w. split; [now apply ap_cons with u|]. rewrite B, num_cons, <- app_assoc. reflexivity.
      * right. exists ((f, t) :: before), f0, t0, after, (v :: args), w, out. split; [now rewrite A|]. split; [now apply ap_cons with u|]. split; [exact C|].
        split; [|exact G]. rewrite D. cbn [app]. rewrite num_cons, <- app_assoc. reflexivity.
    + right. destruct (then_skip q (S k) (Err e) (calls ++ [(k, v)]) eq_refl) as (out & A & B).
      exists [], f, t, q, [], v, out. rewrite F. split; [reflexivity|]. split; [constructor|]. split; [intros (u & K); discriminate|]. split; [exact A|exact B].
    + right. destruct (then_skip q (S k) Valueless (calls ++ [(k, v)]) eq_refl) as (out & A & B).
      exists [], f, t, q, [], v, out. rewrite F. split; [reflexivity|]. split; [constructor|]. split; [intros (u & K); discriminate|]. split; [exact A|exact B].
Qed.
Lemma else_any fs : Forall (fun s : stage (V := V) E => forall e, fst s e <> Ok Valueless) fs -> forall k (e : E) calls,
  (exists args w, all_fail fs e args w /\ else_chain k fs (Err e) calls = (Ok (Err w), calls ++ num k args)) \/
  (exists before f t after args w out, fs = before ++ (f, t) :: after /\ all_fail before e args w /\ ~ is_err (f w) /\
     else_chain k fs (Err e) calls = (out, calls ++ num k (args ++ [w])) /\ passed_on (f w) after out).
Proof.
  induction fs as [|(f, t) q IH]; intros NV k v calls.
  - left. exists [], v. split; [constructor|]. cbn. now rewrite app_nil_r.
  - cbn [else_chain]. unfold r_or_else. cbn [r_ok r_error noexcept]. pose proof (Forall_inv NV v) as NVv. cbn [fst] in NVv. specialize (IH (Forall_inv_tail NV)).
    assert (STOP : forall x, f v = x -> (forall r', x <> Ok r') ->
      exists before f0 t0 after args w out, (f, t) :: q = before ++ (f0, t0) :: after /\ all_fail before v args w /\ ~ is_err (f0 w) /\
        (x, calls ++ [(k, v)]) = (out, calls ++ num k (args ++ [w])) /\ passed_on (f0 w) after out).
    { intros x Ex Nx. exists [], f, t, q, [], v, x. rewrite Ex. split; [reflexivity|]. split; [constructor|]. split; [intros (u & K); exact (Nx _ K)|].
      split; [reflexivity|]. destruct x; [destruct (Nx a eq_refl)|reflexivity|reflexivity|reflexivity|reflexivity]. }
    destruct (f v) as [r'|x| | |] eqn:F; [|right; apply STOP; [reflexivity|discriminate]..].
    destruct r' as [u|u|].
    + right. destruct (else_skip q (S k) u (calls ++ [(k, v)])) as (out & A & B).
      exists [], f, t, q, [], v, out. rewrite F. split; [reflexivity|]. split; [constructor|]. split; [intros (z & K); discriminate|]. split; [exact A|exact B].
    + destruct (IH (S k) u (calls ++ [(k, v)])) as [(args & w & A & B)|(before & f0 & t0 & after & args & w & out & A & B & C & D & G)].
      * left. exists (v :: args), w. split; [now apply af_cons with u|]. rewrite B, num_cons, <- app_assoc. reflexivity.
      * right. exists ((f, t) :: before), f0, t0, after, (v :: args), w, out. split; [now rewrite A|]. split; [now apply af_cons with u|]. split; [exact C|].
        split; [|exact G]. rewrite D. cbn [app]. rewrite num_cons, <- app_assoc. reflexivity.
    + congruence.
Qed.
Lemma then_thm fs (v : V) :
  (exists args w, all_pass (E := E) fs v args w /\ then_chain 0 fs (Val v) [] = (Ok (Val w), numbered args)) \/
  (exists before f t after args w out, fs = before ++ (f, t) :: after /\ all_pass before v args w /\ ~ is_value (f w) /\
     then_chain 0 fs (Val v) [] = (out, numbered (args ++ [w])) /\ passed_on (f w) after out).
Proof. exact (then_any fs 0 v []). Qed.
Lemma else_thm fs : Forall (fun s : stage (V := V) E => forall e, fst s e <> Ok Valueless) fs -> forall (e : E),
  (exists args w, all_fail fs e args w /\ else_chain 0 fs (Err e) [] = (Ok (Err w), numbered args)) \/
  (exists before f t after args w out, fs = before ++ (f, t) :: after /\ all_fail before e args w /\ ~ is_err (f w) /\
     else_chain 0 fs (Err e) [] = (out, numbered (args ++ [w])) /\ passed_on (f w) after out).
Proof. intros H e. exact (else_any fs H 0 e []). Qed.
Lemma skip_thm fs (r : res) : r_is_error r = true -> exists out, then_chain 0 fs r [] = (out, []) /\ passed_on (Ok r) fs out.
Proof. intros H. apply then_skip. unfold r_is_error in H. now destruct (r_ok r). Qed.
Lemma skip_else_thm fs (v : V) : exists out, else_chain (E := E) 0 fs (Val v) [] = (out, []) /\ passed_on (Ok (Val v)) fs out.
Proof. apply else_skip. Qed.
Lemma app_chain fs gs : forall k (r : res) calls,
  then_chain k (fs ++ gs) r calls =
  match then_chain k fs r calls with (Ok r', calls') => then_chain (k + length fs) gs r' calls' | other => other end.
Proof.
  induction fs as [|(f, t) q IH]; intros k r calls; cbn [app then_chain length]; [now rewrite PeanoNat.Nat.add_0_r|].
  destruct (r_and_then r _ t calls) as ([r'|x| | |] & c'); try reflexivity. rewrite IH, PeanoNat.Nat.add_succ_r. reflexivity.
Qed.
Lemma transform_thm mv me fs : forall k (r : res) calls,
  match then_chain k fs r calls with
  | (Ok r', calls') => transform_chain mv me k fs r calls = (Ok tt, r', calls')
  | (Throw x, calls') => exists r', transform_chain mv me k fs r calls = (Throw x, r', calls') /\ exists done, done <> fs /\ (exists rest, fs = done ++ rest) /\ fst (then_chain k done r calls) = Ok r'
  | (UB, calls') => exists r', transform_chain mv me k fs r calls = (UB, r', calls')
  | (Terminate, calls') => exists r', transform_chain mv me k fs r calls = (Terminate, r', calls')
  | (Diverge, calls') => exists r', transform_chain mv me k fs r calls = (Diverge, r', calls')
  end.
Proof.
  induction fs as [|(f, t) q IH]; intros k r calls; cbn [then_chain transform_chain]; [reflexivity|].
  unfold r_transform. destruct (r_and_then r _ t calls) as ([r'|x| | |] & c') eqn:R.
  - cbn [r_move_assign fst]. specialize (IH (S k) r' c'). destruct (then_chain (S k) q r' c') as ([r''|x| | |] & c'') eqn:T; try exact IH.
    destruct IH as (r1 & A & done & B & (rest & C) & D). exists r1. split; [exact A|]. exists ((f, t) :: done). split; [congruence|]. split; [exists rest; cbn [app]; congruence|].
    cbn [then_chain]. rewrite R. exact D.
  - exists r. split; [reflexivity|]. exists []. split; [discriminate|]. split; [now exists ((f, t) :: q)|reflexivity].
  - now exists r.
  - now exists r.
  - now exists r.
Qed.
End Chain.
