(** Model of wite/io/byte_stream.hpp on output streams whose device may refuse bytes. *)
From Coq Require Import List. Import ListNotations.
From Verif Require Import Base Io_Model File_Model.
Local Open Scope N_scope.

(** Standard library, std::ostream. An output stream: the bytes that have arrived at the device, how often the device
    has been asked to take bytes, and whether the stream state is good. *)
Record ostrm := OStrm { od_out : list byte; od_calls : N; od_good : bool }.

(** wite/io/byte_stream.hpp:36-40 write.  std::ostream::write does nothing if the state is not good; otherwise it offers
    the object representation to the device, which takes the first bytes of it, and sets badbit if it does not take
    all.  [takes i]: how many bytes the device would take in the [i]-th call, an oracle.  The stream's exceptions() mask
    is the default, so nothing is thrown. *)
Definition put_value (ev : env) (takes : N -> N) (s : scalar) (v : value) (st : ostrm) : ostrm :=
  if od_good st then
    let bs := to_mem (machine ev) s v in
    let k := N.min (takes (od_calls st)) (lenN bs) in
    OStrm (od_out st ++ takeN k bs) (od_calls st + 1) (k =? lenN bs)
  else st.
(** Model only, no counterpart in the code: successive calls of wite/io/byte_stream.hpp:36-40. *)
Fixpoint put_values (ev : env) (takes : N -> N) (svs : list (scalar * value)) (st : ostrm) : ostrm :=
  match svs with [] => st | (s, v) :: r => put_values ev takes r (put_value ev takes s v st) end.
