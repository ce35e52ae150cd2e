(* Independent specification of the NDN-TLV wire format (NDN packet specification, "TLV"). *)
From Verif Require Import Base.

(* value of a big-endian octet string *)
Fixpoint big_endian (d : bytes) : N :=
  match d with
  | [] => 0
  | b :: d' => bn b * 256 ^ nlen d' + big_endian d'
  end.

(* VAR-NUMBER: one octet below 253; or 253, 254, 255 followed by 2, 4, 8 octets *)
Inductive is_varnum : N -> bytes -> Prop :=
| VN1 : forall b, bn b < 253 -> is_varnum (bn b) [b]
| VN3 : forall b d, bn b = 253 -> nlen d = 2 -> is_varnum (big_endian d) (b :: d)
| VN5 : forall b d, bn b = 254 -> nlen d = 4 -> is_varnum (big_endian d) (b :: d)
| VN9 : forall b d, bn b = 255 -> nlen d = 8 -> is_varnum (big_endian d) (b :: d).

(* NonNegativeInteger: exactly 1, 2, 4 or 8 octets *)
Definition is_nni (n : N) (d : bytes) : Prop :=
  (nlen d = 1 \/ nlen d = 2 \/ nlen d = 4 \/ nlen d = 8) /\ n = big_endian d.

(* the shortest forms *)
Definition shortest_varnum (n : N) (d : bytes) : Prop :=
  is_varnum n d /\ forall d', is_varnum n d' -> nlen d <= nlen d'.
Definition shortest_nni (n : N) (d : bytes) : Prop :=
  is_nni n d /\ forall d', is_nni n d' -> nlen d <= nlen d'.

(* TLV element with type t and value v *)
Definition is_tlv (t : N) (v w : bytes) : Prop :=
  0 < t /\ t < 2 ^ 32 /\
  exists a b, is_varnum t a /\ is_varnum (nlen v) b /\ w = a ++ b ++ v.

(* a sequence of TLV elements, given as (type, value) pairs *)
Inductive is_tlv_seq : list (N * bytes) -> bytes -> Prop :=
| seq_nil : is_tlv_seq [] []
| seq_cons : forall t v w l ws,
    is_tlv t v w -> is_tlv_seq l ws -> is_tlv_seq ((t, v) :: l) (w ++ ws).

(* trees of elements *)
Inductive tree := Leaf (t : N) (v : bytes) | Node (t : N) (ts : list tree).

Definition tree_type (x : tree) : N := match x with Leaf t _ => t | Node t _ => t end.

(* w is an encoding of tree x *)
Inductive tree_wire : tree -> bytes -> Prop :=
| tw_leaf : forall t v w, is_tlv t v w -> tree_wire (Leaf t v) w
| tw_node : forall t ts vs v w, trees_wire ts vs -> v = concat vs -> is_tlv t v w ->
    tree_wire (Node t ts) w
with trees_wire : list tree -> list bytes -> Prop :=
| tws_nil : trees_wire [] []
| tws_cons : forall x w ts ws, tree_wire x w -> trees_wire ts ws -> trees_wire (x :: ts) (w :: ws).
