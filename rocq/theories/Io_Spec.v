(** What the io documentation promises, independent of how the code does it. *)
From Verif Require Import Base Io_Model.

(** [bs] is the [n]-byte two's-complement positional notation of [z] in byte
    order [e]: the digit of weight 256^i is at offset i (little) or n-1-i (big). *)
Definition is_wire (e : endian) (n : nat) (z : Z) (bs : list byte) : Prop :=
  length bs = n /\
  forall i, (i < n)%nat ->
    exists b, nth_error bs (match e with little => i | big => n - 1 - i end)%nat = Some b /\
              Z.of_N (Byte.to_N b) = ((z / 256 ^ Z.of_nat i) mod 256)%Z.

Definition flip (e : endian) : endian := match e with little => big | big => little end.

(** The byte order that an encoding really produces: the one it names if the
    configured byte order is the machine's, else the other. *)
Definition effective (ev : env) (e : endian) : endian :=
  if endian_eqb (machine ev) (configured ev) then e else flip e.

(** The bytes a value stands for in a buffer. *)
Definition value_encoding (ev : env) (t : vtype) (v : value) (bs : list byte) : Prop :=
  match t, v with
  | TPlain (SInt n _), VInt z => is_wire (machine ev) n z bs
  | TPlain (SPod _), VPod b => bs = b
  | TEnc e n _, VInt z => is_wire (effective ev e) n z bs
  | _, _ => False
  end.

Definition arg_encoding (ev : env) (a : warg) (bs : list byte) : Prop :=
  match a with
  | AVal t v => value_encoding ev t v bs
  | ARange s vs => exists bss, Forall2 (value_encoding ev (TPlain s)) vs bss /\ bs = concat bss
  end.

(** The concatenated encodings of a list of arguments. *)
Definition args_encoding (ev : env) (args : list warg) (bs : list byte) : Prop :=
  exists bss, Forall2 (arg_encoding ev) args bss /\ bs = concat bss.

(** Well-typed values and arguments. *)
Definition typed (t : vtype) (v : value) : Prop := value_ok (scalar_of t) v.
Definition arg_ok (a : warg) : Prop :=
  match a with AVal t v => typed t v | ARange s vs => (0 < scalar_bytes s)%nat /\ Forall (value_ok s) vs end.

(** [buf'] is [buf] with the bytes from [pos] on replaced by [bs], nothing else
    changed. *)
Definition overwritten (buf : list byte) (pos : N) (bs buf' : list byte) : Prop :=
  length buf' = length buf /\
  forall i : nat,
    nth_error buf' i =
      if (N.of_nat i <? pos) || (pos + lenN bs <=? N.of_nat i)
      then nth_error buf i else nth_error bs (i - N.to_nat pos).

(** Ordinary (unbounded) total size of a list of types / arguments. *)
Definition sum (l : list N) : N := fold_right N.add 0 l.
Definition types_size (ts : list vtype) : N := sum (map value_size ts).
Definition arg_bytes (a : warg) : N :=
  match a with
  | AVal t _ => value_size t
  | ARange s vs => lenN vs * N.of_nat (scalar_bytes s)
  end.
Definition args_size (args : list warg) : N := sum (map arg_bytes args).

(** The values [vs], of types [ts], are what the bytes [bs] stand for, read off
    from left to right with no gaps. *)
Inductive decodes (ev : env) : list vtype -> list byte -> list value -> Prop :=
| decodes_nil : decodes ev [] [] []
| decodes_cons t ts b bs v vs :
    typed t v -> value_encoding ev t v b -> decodes ev ts bs vs ->
    decodes ev (t :: ts) (b ++ bs) (v :: vs).

(** Types as C++ has them: at least one byte. *)
Definition vtype_ok (t : vtype) : Prop := (0 < scalar_bytes (scalar_of t))%nat.

(** The bytes [pos, pos+n) of a buffer. *)
Definition slice (buf : list byte) (pos n : N) : list byte := takeN n (dropN pos buf).
