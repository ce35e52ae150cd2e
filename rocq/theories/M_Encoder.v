(* Model of encoding/encoder.{hpp,cpp} with its storage, and encoding/estimator.hpp. *)
From Verif Require Import Base M_Tlv.

(* encoding/encoder.hpp:241-247: m_buffer, and m_begin / m_end as offsets into it *)
Record encoder := mkEncoder { en_buf : bytes; en_begin : nat; en_end : nat }.

(* encoding/encoder.cpp:30-34 Encoder(totalReserve, reserveFromBack).  The octets of a new
   Buffer are taken as zero. *)
Definition newEncoder (totalReserve reserveFromBack : nat) : encoder :=
  let pos := (totalReserve -
     (if Nat.ltb reserveFromBack totalReserve then reserveFromBack else 0))%nat in
  mkEncoder (repeat x00 totalReserve) pos pos.

(* encoding/encoder.hpp:171-229: octets [m_begin, m_end) *)
Definition en_contents (e : encoder) : bytes :=
  skipn (en_begin e) (firstn (en_end e) (en_buf e)).

(* encoding/encoder.cpp:63-94 Encoder::reserve *)
Definition en_reserve (size : nat) (addInFront : bool) (e : encoder) : encoder :=
  let old := length (en_buf e) in
  let size' := if Nat.ltb size old then old else size in
  if addInFront then
    let diffEnd := (old - en_end e)%nat in
    let diffBegin := (old - en_begin e)%nat in
    mkEncoder (repeat x00 (size' - old) ++ en_buf e) (size' - diffBegin) (size' - diffEnd)
  else
    mkEncoder (en_buf e ++ repeat x00 (size' - old)) (en_begin e) (en_end e).

(* encoding/encoder.cpp:43-48 reserveBack *)
Definition en_reserveBack (size : nat) (e : encoder) : encoder :=
  if Nat.ltb (length (en_buf e)) (en_end e + size)
  then en_reserve (length (en_buf e) * 2 + size) false e else e.

(* encoding/encoder.cpp:50-55 reserveFront *)
Definition en_reserveFront (size : nat) (e : encoder) : encoder :=
  if Nat.ltb (en_begin e) size
  then en_reserve (length (en_buf e) * 2 + size) true e else e.

(* std::copy(first, last, buffer + pos): undefined behaviour if it leaves the buffer *)
Definition write_at (pos : nat) (v buf : bytes) : res bytes :=
  if Nat.leb (pos + length v) (length buf)
  then Ok (firstn pos buf ++ v ++ skipn (pos + length v) buf)
  else Err EUb.

(* encoding/encoder.hpp:250-263 prependRange; encoder.cpp:96-100 prependBytes.
   Moving m_begin before the buffer is undefined behaviour. *)
Definition en_prependBytes (v : bytes) (e : encoder) : res (nat * encoder) :=
  let e1 := en_reserveFront (length v) e in
  if Nat.ltb (en_begin e1) (length v) then Err EUb
  else
    let b := (en_begin e1 - length v)%nat in
    let! buf := write_at b v (en_buf e1) in
    Ok (length v, mkEncoder buf b (en_end e1)).

(* encoding/encoder.hpp:265-278 appendRange; encoder.cpp:102-106 appendBytes *)
Definition en_appendBytes (v : bytes) (e : encoder) : res (nat * encoder) :=
  let e1 := en_reserveBack (length v) e in
  let! buf := write_at (en_end e1) v (en_buf e1) in
  Ok (length v, mkEncoder buf (en_begin e1) (en_end e1 + length v)).

(* encoding/encoder.cpp:108-133 prependVarNumber *)
Definition en_prependVarNumber (n : N) (e : encoder) : res (nat * encoder) :=
  if n <? 253 then
    let! r := en_prependBytes [nb n] e in Ok (1%nat, snd r)
  else if n <=? 65535 then
    let! r := en_prependBytes (be_enc 2 n) e in
    let! r' := en_prependBytes [nb 253] (snd r) in Ok (3%nat, snd r')
  else if n <=? 4294967295 then
    let! r := en_prependBytes (be_enc 4 n) e in
    let! r' := en_prependBytes [nb 254] (snd r) in Ok (5%nat, snd r')
  else
    let! r := en_prependBytes (be_enc 8 n) e in
    let! r' := en_prependBytes [nb 255] (snd r) in Ok (9%nat, snd r').

(* encoding/encoder.cpp:135-160 appendVarNumber *)
Definition en_appendVarNumber (n : N) (e : encoder) : res (nat * encoder) :=
  if n <? 253 then
    let! r := en_appendBytes [nb n] e in Ok (1%nat, snd r)
  else if n <=? 65535 then
    let! r := en_appendBytes [nb 253] e in
    let! r' := en_appendBytes (be_enc 2 n) (snd r) in Ok (3%nat, snd r')
  else if n <=? 4294967295 then
    let! r := en_appendBytes [nb 254] e in
    let! r' := en_appendBytes (be_enc 4 n) (snd r) in Ok (5%nat, snd r')
  else
    let! r := en_appendBytes [nb 255] e in
    let! r' := en_appendBytes (be_enc 8 n) (snd r) in Ok (9%nat, snd r').

(* encoding/encoder.cpp:162-180 prependNonNegativeInteger *)
Definition en_prependNNI (n : N) (e : encoder) : res (nat * encoder) :=
  if n <=? 255 then en_prependBytes [nb n] e
  else if n <=? 65535 then en_prependBytes (be_enc 2 n) e
  else if n <=? 4294967295 then en_prependBytes (be_enc 4 n) e
  else en_prependBytes (be_enc 8 n) e.

(* encoding/encoder.cpp:182-200 appendNonNegativeInteger *)
Definition en_appendNNI (n : N) (e : encoder) : res (nat * encoder) :=
  if n <=? 255 then en_appendBytes [nb n] e
  else if n <=? 65535 then en_appendBytes (be_enc 2 n) e
  else if n <=? 4294967295 then en_appendBytes (be_enc 4 n) e
  else en_appendBytes (be_enc 8 n) e.

(* The operations common to Encoder and Estimator, and explicit reservations *)
Inductive enc_op :=
| PrependBytes (v : bytes)
| AppendBytes (v : bytes)
| PrependVarNumber (n : N)
| AppendVarNumber (n : N)
| PrependNNI (n : N)
| AppendNNI (n : N)
| ReserveFront (size : nat)
| ReserveBack (size : nat)
| Reserve (size : nat) (addInFront : bool).

Definition en_step (op : enc_op) (e : encoder) : res (nat * encoder) :=
  match op with
  | PrependBytes v => en_prependBytes v e
  | AppendBytes v => en_appendBytes v e
  | PrependVarNumber n => en_prependVarNumber n e
  | AppendVarNumber n => en_appendVarNumber n e
  | PrependNNI n => en_prependNNI n e
  | AppendNNI n => en_appendNNI n e
  | ReserveFront s => Ok (O, en_reserveFront s e)
  | ReserveBack s => Ok (O, en_reserveBack s e)
  | Reserve s f => Ok (O, en_reserve s f e)
  end.

(* sum of the returned sizes, and the final encoder *)
Fixpoint en_run (ops : list enc_op) (e : encoder) : res (nat * encoder) :=
  match ops with
  | [] => Ok (O, e)
  | op :: ops' =>
      let! r := en_step op e in
      let! r' := en_run ops' (snd r) in
      Ok ((fst r + fst r')%nat, snd r')
  end.

(* encoding/estimator.hpp:42-111: each operation returns a size (reservations do not exist) *)
Definition est_step (op : enc_op) : N :=
  match op with
  | PrependBytes v | AppendBytes v => nlen v
  | PrependVarNumber n | AppendVarNumber n => sizeOfVarNumber n
  | PrependNNI n | AppendNNI n => sizeOfNonNegativeInteger n
  | ReserveFront _ | ReserveBack _ | Reserve _ _ => 0
  end.

Definition est_run (ops : list enc_op) : N := fold_right (fun op s => est_step op + s) 0 ops.
