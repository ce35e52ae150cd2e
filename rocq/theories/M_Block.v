(* Model of class Block (encoding/block.{hpp,cpp}) with its wire, value and element caches. *)
From Verif Require Import Base M_Tlv.

(* encoding/block.hpp:524-537 m_buffer, m_begin, m_end, m_valueBegin, m_valueEnd *)
Inductive bufst :=
| NoBuf                        (* m_buffer == nullptr *)
| ValBuf (v : bytes)           (* m_begin == m_end: only a TLV-VALUE *)
| WireBuf (hdr v : bytes).     (* complete element *)

(* encoding/block.hpp:539-553 m_type, m_size and m_elements *)
Inductive block := Blk (t : N) (buf : bufst) (size : N) (elems : list block).

Definition bk_type (b : block) : N := let 'Blk t _ _ _ := b in t.
Definition bk_buf (b : block) : bufst := let 'Blk _ u _ _ := b in u.
Definition bk_msize (b : block) : N := let 'Blk _ _ s _ := b in s.
Definition bk_elems (b : block) : list block := let 'Blk _ _ _ es := b in es.

(* encoding/block.hpp:192-196 isValid *)
Definition bk_isValid (b : block) : bool := negb (bk_type b =? tInvalid).
(* encoding/block.hpp:204-208 hasWire *)
Definition bk_hasWire (b : block) : bool := match bk_buf b with WireBuf _ _ => true | _ => false end.
(* encoding/block.hpp:288-292 hasValue *)
Definition bk_hasValue (b : block) : bool := match bk_buf b with NoBuf => false | _ => true end.
(* encoding/block.hpp:307-314 value_bytes *)
Definition bk_value (b : block) : bytes :=
  match bk_buf b with NoBuf => [] | ValBuf v => v | WireBuf _ v => v end.
(* encoding/block.hpp:298-302 value_size *)
Definition bk_value_size (b : block) : N := nlen (bk_value b).
(* encoding/block.cpp:255-290 data/begin/end: octets of the wire *)
Definition bk_wire (b : block) : res bytes :=
  match bk_buf b with WireBuf h v => Ok (h ++ v) | _ => Err ETlv end.
(* encoding/block.cpp:264-272 size *)
Definition bk_size (b : block) : res N := if bk_isValid b then Ok (bk_msize b) else Err ETlv.

(* encoding/block.cpp:47 Block() *)
Definition bk_default : block := Blk tInvalid NoBuf 0 [].
(* encoding/block.cpp:136-140 Block(type) *)
Definition bk_ofType (t : N) : block := Blk t NoBuf (sizeOfVarNumber t + sizeOfVarNumber 0) [].
(* encoding/block.cpp:142-151 Block(type, buffer) *)
Definition bk_ofValue (t : N) (v : bytes) : block :=
  Blk t (ValBuf v) (sizeOfVarNumber t + sizeOfVarNumber (nlen v) + nlen v) [].
(* encoding/block.cpp:153-162 Block(type, Block).  A null m_buffer is dereferenced before
   value.begin() can throw. *)
Definition bk_ofBlock (t : N) (b : block) : res block :=
  match bk_buf b with
  | NoBuf => Err EUb
  | ValBuf _ => Err ETlv
  | WireBuf h v => Ok (bk_ofValue t (h ++ v))
  end.
(* encoding/block.cpp:123-134, the private constructor used by fromBuffer and parse *)
Definition bk_ofElem (e : elem) : block :=
  Blk (e_type e) (WireBuf (e_hdr e) (e_val e)) (nlen (e_wire e)) [].

(* encoding/block.cpp:298-303 resetWire: m_size is left as it is *)
Definition bk_resetWire (b : block) : block := Blk (bk_type b) NoBuf (bk_msize b) (bk_elems b).

Definition set_elems (b : block) (es : list block) : block :=
  Blk (bk_type b) (bk_buf b) (bk_msize b) es.

(* encoding/block.cpp:325-350 parse: new state, and the exception if any *)
Definition bk_parse (b : block) : block * option err :=
  if negb (match bk_elems b with [] => true | _ => false end) || (bk_value_size b =? 0)
  then (b, None)
  else
    match parse_loop (S (length (bk_value b))) (bk_value b) with
    | (es, PDone) => (set_elems b (map bk_ofElem es), None)
    | (es, PBadHeader) => (set_elems b (map bk_ofElem es), Some ETlv)
    | (_, PTooLong) => (set_elems b [], Some ETlv)
    | (_, PFuel) => (b, Some EFuel)
    end.

(* encoding/block.cpp:365-386 encode(EncodingEstimator&), encodeValue *)
Fixpoint bk_estimate (b : block) : N :=
  match b with
  | Blk t NoBuf _ es =>
      let len := (fix sum (l : list block) : N :=
                    match l with [] => 0 | x :: l' => bk_estimate x + sum l' end) es in
      let len := len + sizeOfVarNumber len in
      len + sizeOfVarNumber t
  | Blk _ _ size _ => size
  end.

(* encoding/block.cpp:388-411 encode(EncodingBuffer&): octets prepended by it, and the block
   afterwards.  Elements that had a value are re-encoded with the shortest type and length. *)
Fixpoint bk_encodeBuf (b : block) : bytes * block :=
  match b with
  | Blk t u _ es =>
      let '(v, es') :=
        match u with
        | NoBuf =>
            (fix go (l : list block) : bytes * list block :=
               match l with
               | [] => ([], [])
               | x :: l' =>
                   let '(w, x') := bk_encodeBuf x in
                   let '(ws, l'') := go l' in
                   (w ++ ws, x' :: l'')
               end) es
        | ValBuf v => (v, es)
        | WireBuf _ v => (v, es)
        end in
      let h := encVarNumber t ++ encVarNumber (nlen v) in
      (h ++ v, Blk t (WireBuf h v) (nlen (h ++ v)) es')
  end.

(* encoding/block.cpp:352-363 encode().  The iterators stored at 392 and 401-406 would dangle
   if the EncodingBuffer, sized by the estimator, had to grow: undefined behaviour. *)
Definition bk_encode (b : block) : res block :=
  if bk_hasWire b then Ok b
  else
    let '(w, b') := bk_encodeBuf b in
    if bk_estimate b <? nlen w then Err EUb else Ok b'.

(* encoding/block.cpp:424-429 find *)
Definition bk_find (t : N) (b : block) : option block :=
  List.find (fun x => bk_type x =? t) (bk_elems b).
(* encoding/block.cpp:413-422 get *)
Definition bk_get (t : N) (b : block) : res block := of_opt ETlv (bk_find t b).
(* encoding/block.cpp:431-439 remove *)
Definition bk_remove (t : N) (b : block) : block :=
  set_elems (bk_resetWire b) (filter (fun x => negb (bk_type x =? t)) (bk_elems b)).
(* encoding/block.cpp:441-453 erase: elements [first, last) *)
Definition bk_erase (first last : nat) (b : block) : block :=
  set_elems (bk_resetWire b) (firstn first (bk_elems b) ++ skipn last (bk_elems b)).
(* encoding/block.cpp:455-467 push_back *)
Definition bk_push_back (x b : block) : block := set_elems (bk_resetWire b) (bk_elems b ++ [x]).
(* encoding/block.cpp:469-474 insert *)
Definition bk_insert (pos : nat) (x b : block) : block :=
  set_elems (bk_resetWire b) (firstn pos (bk_elems b) ++ x :: skipn pos (bk_elems b)).
(* encoding/block.cpp:483-490 equals *)
Definition bk_equals (a b : block) : bool :=
  (bk_type a =? bk_type b) && (bk_value_size a =? bk_value_size b) &&
  ((bk_value_size a =? 0) || bytes_eqb (bk_value a) (bk_value b)).
(* encoding/block-helpers.cpp:191-202 prependBlock: octets prepended *)
Definition bk_prepend (b : block) : bytes :=
  match bk_buf b with WireBuf h v => h ++ v | _ => tlv_enc (bk_type b) (bk_value b) end.
