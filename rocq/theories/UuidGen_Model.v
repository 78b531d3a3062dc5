(** Model of random UUIDs: uuid(engine) used repeatedly, and make_uuid() on several
    threads, together with the standard engine std::mt19937_64 it uses. *)
From Coq Require Import List. Import ListNotations.
From Verif Require Import Base Io_Model Uuid_Model.
Local Open Scope N_scope.

(** ** std::mt19937_64 *)

(** The Standard requires the 10000th word of the engine seeded with 5489 to be 9981545732273789042
    ([rand.predef] 4); [Eval vm_compute in word mt_next (mt_seed 5489) 9999] gives that word. *)

(** C++ language (Standard, [rand.eng.mers] 6-8). One step of the seeding recurrence of
    mersenne_twister_engine with w = 64 and f = 6364136223846793005. *)
Definition mt_seed_next (x i : N) : N := (6364136223846793005 * N.lxor x (N.shiftr x 62) + i) mod 2 ^ 64.

(** C++ language (Standard, [rand.eng.mers] 6-8). The words from number [i] on, [x] being that word. *)
Fixpoint mt_seed_words (k : nat) (x i : N) : list N :=
  match k with O => [] | S k' => x :: mt_seed_words k' (mt_seed_next x (i + 1)) (i + 1) end.

(** C++ language (Standard, [rand.eng.mers] 6-8). mt19937_64(value): n = 312 words. *)
Definition mt_seed (value : N) : list N := mt_seed_words 312 (value mod 2 ^ 64) 0.

(** C++ language (Standard, [rand.eng.mers] 3). Tempering, with u = 29, d = 0x5555555555555555,
    s = 17, b = 0x71d67fffeda60000, t = 37, c = 0xfff7eee000000000, l = 43. *)
Definition mt_temper (x : N) : N :=
  let z := N.lxor x (N.land (N.shiftr x 29) 0x5555555555555555) in
  let z := N.lxor z (N.land (N.shiftl z 17 mod 2 ^ 64) 0x71d67fffeda60000) in
  let z := N.lxor z (N.land (N.shiftl z 37 mod 2 ^ 64) 0xfff7eee000000000) in
  N.lxor z (N.shiftr z 43).

(** C++ language (Standard, [rand.eng.mers] 2-3). operator(): the state is the last 312 words, oldest
    first; m = 156, r = 31, a = 0xb5026f5aa96619e9. *)
Definition mt_next (s : list N) : N * list N :=
  let y := N.lor (N.land (nth 0 s 0) 0xffffffff80000000) (N.land (nth 1 s 0) 0x7fffffff) in
  let x := N.lxor (nth 156 s 0) (N.lxor (N.shiftr y 1) (if N.odd y then 0xb5026f5aa96619e9 else 0)) in
  (mt_temper x, tl s ++ [x]).

(** ** uuid(engine) *)

(** wite/core/uuid.hpp:62-76: uuid(engine), together with what becomes of the engine.
    [next] is one call of the engine.  Simplification: the engine returns all 64-bit
    words, so that std::uniform_int_distribution over all of uint64_t is one call of
    it, as in the common standard libraries. *)
Definition uuid_from_engine {E : Type} (m : endian) (next : E -> N * E) (e : E) : list byte * E :=
  let '(w1, e) := next e in
  let '(w2, e) := next e in
  (uuid_random m w1 w2, e).

(** C++ language (Standard). A program that makes UUIDs with several engine objects,
    numbered; the UUIDs made, each with the number of its engine. *)
Fixpoint engines_run {E : Type} (m : endian) (next : E -> N * E) (ops : list nat) (es : nat -> E) :
  list (nat * list byte) * (nat -> E) :=
  match ops with
  | [] => ([], es)
  | i :: ops' =>
      let '(u, e) := uuid_from_engine m next (es i) in
      let '(us, es') := engines_run m next ops' (fun j => if Nat.eqb j i then e else es j) in
      ((i, u) :: us, es')
  end.

(** ** make_uuid() on several threads *)

(** Where a thread is: about to enter make_uuid, about to draw the first word of
    uuid.hpp:71, or the second of uuid.hpp:74 (with the first in hand). *)
Inductive gen_pc := GEnter | GFirst | GSecond (w1 : N).

(** wite/core/uuid.hpp:160-163. What belongs to a thread: its thread_local [random_engine]
    ([None] until it has been initialised), where it is, and what its calls have given so far
    ([None] is an exception). *)
Record gen_thread := Thread { th_engine : option (list N); th_pc : gen_pc; th_out : list (option (list byte)) }.

(** wite/core/uuid.hpp:160-163 make_uuid(), the next step of one thread.  [rd] is what
    std::random_device gives if this step asks it: an unsigned int, or an exception.
    Initialising a thread_local variable that throws is tried again by the next call. *)
Definition gen_thread_step (m : endian) (rd : option N) (t : gen_thread) : gen_thread :=
  match th_pc t, th_engine t with
  | GEnter, Some e => Thread (Some e) GFirst (th_out t)
  | GEnter, None =>
      match rd with
      | Some v => Thread (Some (mt_seed (v mod 2 ^ 32))) GFirst (th_out t)
      | None => Thread None GEnter (th_out t ++ [None])
      end
  | GFirst, Some e => let '(w1, e') := mt_next e in Thread (Some e') (GSecond w1) (th_out t)
  | GSecond w1, Some e =>
      let '(w2, e') := mt_next e in Thread (Some e') GEnter (th_out t ++ [Some (uuid_random m w1 w2)])
  | _, None => t
  end.

(** C++ language (Standard). An interleaving: each entry lets one thread do its next step. *)
Fixpoint gen_run (m : endian) (schedule : list (nat * option N)) (s : nat -> gen_thread) : nat -> gen_thread :=
  match schedule with
  | [] => s
  | (i, rd) :: schedule' =>
      gen_run m schedule' (fun j => if Nat.eqb j i then gen_thread_step m rd (s i) else s j)
  end.

(** C++ language (Standard). Threads that have not called make_uuid yet. *)
Definition gen_start : nat -> gen_thread := fun _ => Thread None GEnter [].

(** wite/core/uuid.hpp:160-163. What the calls of thread [i] of make_uuid have given, in order, after a schedule. *)
Definition made_by (m : endian) (schedule : list (nat * option N)) (i : nat) : list (option (list byte)) :=
  th_out (gen_run m schedule gen_start i).
