(* Vocabulary of the statements about Block and the encoder. *)
From Verif Require Import Base S_Tlv M_Tlv M_Block M_Encoder.

(* octets a block stands for: its value if it has one, otherwise those of its elements *)
Fixpoint bk_octets (b : block) : bytes :=
  match b with
  | Blk t NoBuf _ es => tlv_enc t (concat (map bk_octets es))
  | Blk t (ValBuf v) _ _ => tlv_enc t v
  | Blk t (WireBuf _ v) _ _ => tlv_enc t v
  end.

(* ---- blocks obtainable through the public interface ---- *)
Inductive built : block -> Prop :=
| bu_default : built bk_default
| bu_ofType : forall t, built (bk_ofType t)
| bu_ofValue : forall t v, built (bk_ofValue t v)
| bu_ofBlock : forall t b b', built b -> bk_ofBlock t b = Ok b' -> built b'
| bu_decode : forall w e, blockFromSpan w = Ok e -> built (bk_ofElem e)
| bu_parse : forall b, built b -> built (fst (bk_parse b))
| bu_encode : forall b b', built b -> bk_encode b = Ok b' -> built b'
| bu_push : forall x b, built x -> built b -> built (bk_push_back x b)
| bu_insert : forall i x b, built x -> built b -> built (bk_insert i x b)
| bu_remove : forall t b, built b -> built (bk_remove t b)
| bu_erase : forall i j b, built b -> built (bk_erase i j b)
| bu_elem : forall x b, built b -> In x (bk_elems b) -> built x.

(* building a tree through the API: Block(type, value); Block(type) and push_back *)
Fixpoint block_of_tree (x : tree) : block :=
  match x with
  | Leaf t v => bk_ofValue t v
  | Node t ts => fold_left (fun b y => bk_push_back y b) (map block_of_tree ts) (bk_ofType t)
  end.

(* TLV-TYPE numbers are in 1..2^32-1 *)
Fixpoint tree_types_ok (x : tree) : Prop :=
  match x with
  | Leaf t _ => 0 < t /\ t < 2 ^ 32
  | Node t ts => 0 < t /\ t < 2 ^ 32 /\
      (fix go l := match l with [] => True | y :: l' => tree_types_ok y /\ go l' end) ts
  end.

(* reading a decoded block as a tree: value(), or parse() and elements() *)
Inductive reads : block -> tree -> Prop :=
| rd_leaf : forall b, reads b (Leaf (bk_type b) (bk_value b))
| rd_node : forall b b' ts, bk_parse b = (b', None) -> reads_all (bk_elems b') ts ->
    reads b (Node (bk_type b) ts)
with reads_all : list block -> list tree -> Prop :=
| rda_nil : reads_all [] []
| rda_cons : forall b bs x xs, reads b x -> reads_all bs xs -> reads_all (b :: bs) (x :: xs).

(* repeated parse() *)
Fixpoint parse_n (n : nat) (b : block) : block * option err :=
  match n with O => (b, None) | S n' => bk_parse (fst (parse_n n' b)) end.


(* a header that cannot be read: no prefix is a valid TLV-TYPE followed by a TLV-LENGTH *)
Definition bad_header (v : bytes) : Prop :=
  v <> [] /\
  forall t a len b r, v = a ++ b ++ r -> 0 < t < 2 ^ 32 -> is_varnum t a -> is_varnum len b -> False.
(* an element whose length exceeds what is left *)
Definition overlong (v : bytes) : Prop :=
  exists t a b len r, 0 < t < 2 ^ 32 /\ is_varnum t a /\ is_varnum len b /\ nlen r < len /\ v = a ++ b ++ r.

(* the octets an operation must add in front (first component) and at the back (second) *)
Inductive op_adds : enc_op -> bytes * bytes -> Prop :=
| oa_pb : forall v, op_adds (PrependBytes v) (v, [])
| oa_ab : forall v, op_adds (AppendBytes v) ([], v)
| oa_pv : forall n d, shortest_varnum n d -> op_adds (PrependVarNumber n) (d, [])
| oa_av : forall n d, shortest_varnum n d -> op_adds (AppendVarNumber n) ([], d)
| oa_pn : forall n d, shortest_nni n d -> op_adds (PrependNNI n) (d, [])
| oa_an : forall n d, shortest_nni n d -> op_adds (AppendNNI n) ([], d)
| oa_rf : forall s, op_adds (ReserveFront s) ([], [])
| oa_rb : forall s, op_adds (ReserveBack s) ([], [])
| oa_r : forall s f, op_adds (Reserve s f) ([], []).

(* numbers are uint64_t *)
Definition op_arg_ok (op : enc_op) : Prop :=
  match op with
  | PrependVarNumber n | AppendVarNumber n | PrependNNI n | AppendNNI n => n < 2 ^ 64
  | _ => True
  end.

