(* Independent specification of name components, canonical order and names. *)
From Verif Require Import Base S_Tlv M_Tlv M_Str M_Name.

(* what a component means: its type and value; what a name means: those of its components *)
Definition key : Type := N * bytes.
Definition ckey (c : comp) : key := (c_type c, c_val c).
Definition nkey (n : name) : list key := map ckey (n_comps n).

(* NDN packet specification, "Name": component types 1..65535, digests have 32 octets *)
Definition valid_key (k : key) : Prop :=
  1 <= fst k /\ fst k <= 65535 /\ (fst k = 1 \/ fst k = 2 -> nlen (snd k) = 32).

(* canonical order: by type, then by length, then octet by octet *)
Definition lex_lt (a b : bytes) : Prop :=
  exists p x y a' b', a = p ++ x :: a' /\ b = p ++ y :: b' /\ bn x < bn y.
Definition key_lt (k l : key) : Prop :=
  fst k < fst l \/
  fst k = fst l /\ (nlen (snd k) < nlen (snd l) \/ nlen (snd k) = nlen (snd l) /\ lex_lt (snd k) (snd l)).
(* names: a proper prefix first, otherwise by the first differing component *)
Definition names_lt (a b : list key) : Prop :=
  (exists s, s <> [] /\ b = a ++ s) \/
  exists p x y a' b', a = p ++ x :: a' /\ b = p ++ y :: b' /\ key_lt x y.

(* a component whose wire, if it has one, uses the shortest type and length fields *)
Definition comp_shortest (c : comp) : Prop :=
  match c_hdr c with
  | None => True
  | Some h => exists a b, shortest_varnum (c_type c) a /\ shortest_varnum (nlen (c_val c)) b /\ h = a ++ b
  end.
(* sizes an int can hold: name-component.cpp:443, name.cpp:318 *)
Definition small_comp (c : comp) : Prop := nlen (c_val c) < 2 ^ 31.
Definition small_name (n : name) : Prop := nlen (n_comps n) < 2 ^ 31 /\ Forall small_comp (n_comps n).

(* histories of one Name object *)
Inductive name_op :=
| NAppend (c : comp) | NAppendName (m : name) | NSet (i : Z) (c : comp) | NErase (i : Z) | NClear
| NEncode | NDecode (e : elem) | NDeepCopy.
Definition nm_step (op : name_op) (n : name) : res name :=
  match op with
  | NAppend c => Ok (nm_append c n)
  | NAppendName m => Ok (nm_appendName m n)
  | NSet i c => nm_set i c n
  | NErase i => nm_erase i n
  | NClear => Ok (nm_clear n)
  | NEncode => let! r := nm_encode n in Ok (snd r)
  | NDecode e => nm_decode e
  | NDeepCopy => nm_deepCopy n
  end.
Fixpoint nm_run (ops : list name_op) (n : name) : res name :=
  match ops with [] => Ok n | op :: ops' => let! m := nm_step op n in nm_run ops' m end.

(* position of a signed index in a sequence of length len *)
Definition at_index (i : Z) (len : nat) (j : nat) : Prop :=
  (j < len)%nat /\ (i = Z.of_nat j \/ i = Z.of_nat j - Z.of_nat len)%Z.
(* what each operation does to the sequence of (type, value) *)
Inductive key_step : name_op -> list key -> list key -> Prop :=
| ks_append : forall c l, key_step (NAppend c) l (l ++ [ckey c])
| ks_appendName : forall m l, key_step (NAppendName m) l (l ++ nkey m)
| ks_set : forall i c a k b, at_index i (length (a ++ k :: b)) (length a) ->
    key_step (NSet i c) (a ++ k :: b) (a ++ ckey c :: b)
| ks_erase : forall i a k b, at_index i (length (a ++ k :: b)) (length a) ->
    key_step (NErase i) (a ++ k :: b) (a ++ b)
| ks_clear : forall l, key_step NClear l []
| ks_encode : forall l, key_step NEncode l l
| ks_decode : forall e l l', e_type e = 7 -> is_tlv_seq l' (e_val e) -> key_step (NDecode e) l l'
| ks_deepCopy : forall l, key_step NDeepCopy l l.
Inductive key_run : list name_op -> list key -> list key -> Prop :=
| kr_nil : forall l, key_run [] l l
| kr_cons : forall op ops l1 l2 l3, key_step op l1 l2 -> key_run ops l2 l3 -> key_run (op :: ops) l1 l3.

(* name.hpp:215-247: the documented slices.  A negative start counts from the end and is
   clamped to the beginning; a count that is too large means "until the end". *)
Definition slice_start (i : Z) (len : nat) : nat :=
  if (i <? 0)%Z then Z.to_nat (i + Z.of_nat len) else Z.to_nat i.
Definition slice {A} (i : Z) (cnt : N) (l : list A) : list A :=
  firstn (N.to_nat cnt) (skipn (slice_start i (length l)) l).

(* a component type that can be written as a TLV type *)
Definition ctype_ok (c : comp) : Prop := 0 < c_type c /\ c_type c < two32.

(* the components given to an operation have such types *)
Definition op_typed (op : name_op) : Prop :=
  match op with
  | NAppend c | NSet _ c => ctype_ok c
  | NAppendName m => Forall ctype_ok (n_comps m)
  | _ => True
  end.

(* numeric components of the alternate form use the shortest encoding *)
Definition alt_ok (k : key) : Prop :=
  (fst k = 50 \/ fst k = 52 \/ fst k = 54 \/ fst k = 56 \/ fst k = 58) ->
  (nlen (snd k) = 1 \/ nlen (snd k) = 2 \/ nlen (snd k) = 4 \/ nlen (snd k) = 8) ->
  exists n, n < 2 ^ 64 /\ shortest_nni n (snd k).

(* a decoding convention accepts what an encoding convention writes *)
Definition can_decode (d e : convention) : bool :=
  match e with MARKER => canDecodeMarker d | _ => canDecodeTyped d end.

(* names the comparison handles: shortest headers, sizes that fit in an int, valid types *)
Definition comparable (n : name) : Prop :=
  small_name n /\ Forall comp_shortest (n_comps n) /\ Forall (fun c => c_type c < 2 ^ 31) (n_comps n).


(* RFC 3986 percent-encoding: t is a code of s, keeping exactly the unreserved characters *)
Definition unreserved (c : byte) : Prop :=
  (65 <= bn c <= 90 \/ 97 <= bn c <= 122 \/ 48 <= bn c <= 57) \/
  c = x2d \/ c = x2e \/ c = x5f \/ c = x7e.
Definition upper_hex (n : N) (c : byte) : Prop :=
  n < 10 /\ bn c = 48 + n \/ 10 <= n /\ n < 16 /\ bn c = 55 + n.
Inductive pct_code : bytes -> bytes -> Prop :=
| pct_nil : pct_code [] []
| pct_plain : forall c s t, unreserved c -> pct_code s t -> pct_code (c :: s) (c :: t)
| pct_esc : forall c h l s t, ~ unreserved c -> upper_hex (bn c / 16) h -> upper_hex (bn c mod 16) l ->
    pct_code s t -> pct_code (c :: s) (x25 :: h :: l :: t).
