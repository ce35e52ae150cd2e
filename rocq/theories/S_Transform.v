(* What the transforms mean. *)
From Verif Require Import Base M_Transform.

(* hexadecimal digits *)
Inductive digit : byte -> N -> Prop :=
| dg_num : forall c, 48 <= bn c <= 57 -> digit c (bn c - 48)              (* 0-9 *)
| dg_upper : forall c, 65 <= bn c <= 70 -> digit c (bn c - 65 + 10)       (* A-F *)
| dg_lower : forall c, 97 <= bn c <= 102 -> digit c (bn c - 97 + 10).     (* a-f *)
(* text is a hexadecimal representation of the octets *)
Inductive is_hex : bytes -> bytes -> Prop :=
| hx_nil : is_hex [] []
| hx_cons : forall h l hi lo b t o, digit h hi -> digit l lo -> bn b = 16 * hi + lo -> is_hex t o -> is_hex (h :: l :: t) (b :: o).
Definition letters (upper : bool) (c : byte) : Prop := if upper then bn c <= 70 else bn c < 65 \/ 97 <= bn c.

(* y is the result of a transform on the whole input x *)
Definition means (k : tkind) (x y : bytes) : Prop :=
  match k with
  | HexEncode u => is_hex y x /\ Forall (letters u) y
  | HexDecode => is_hex x y
  | StripSpace ws => y = filter (fun c => negb (ws c)) x
  end.
Fixpoint chain_means (ks : list tkind) (x z : bytes) : Prop :=
  match ks with [] => z = x | k :: ks' => exists y, means k x y /\ chain_means ks' y z end.
