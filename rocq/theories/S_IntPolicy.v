(* Vocabulary for C51 and C52 *)
From Verif Require Import Base M_Tlv S_Tlv M_Name S_Name M_Packet M_Ims M_IntPolicy.
From Coq Require Import ZArith.
Open Scope Z_scope.

(* the key that a SignatureInfo names *)
Definition key_name (si : siginfo) (k : list key) : Prop :=
  (si_type si = Some 0%N /\ k = [(8%N, str "localhost"); (8%N, str "identity"); (8%N, str "digest-sha256")]) \/
  (si_type si <> Some 0%N /\ exists kl n, si_key si = Some kl /\ kl_loc kl = KlName n /\ k = nkey n).
(* the value of the first field of type t *)
Definition field (t : N) (si : siginfo) (v : bytes) : Prop :=
  exists a x b, si_other si = a ++ x :: b /\ c_type x = t /\ c_val x = v /\ (forall y, In y a -> c_type y <> t).
Definition no_field (t : N) (si : siginfo) : Prop := forall y, In y (si_other si) -> c_type y <> t.
(* a number of milliseconds that fits in the clock's 64-bit nanoseconds, taking numbers from 2^63 on as negative *)
Definition ms_as_time (n : N) (t : Z) : Prop :=
  exists z, (z = Z.of_N n /\ Z.of_N n < 2 ^ 63 \/ z = Z.of_N n - 2 ^ 64 /\ 2 ^ 63 <= Z.of_N n < 2 ^ 64) /\ t = z * 1000000 /\ - 2 ^ 63 <= t < 2 ^ 63.
(* the SignatureInfo in the last but one component of a v0.2 signed Interest's name *)
Definition v02_info (c : comp) (si : siginfo) : Prop := exists b, blockFromWire (c_val c) = Ok b /\ si_decode SiData b = (si, None).
(* i is a command signed by key k with timestamp t *)
Inductive is_command : sint -> list key -> Z -> Prop :=
| cmd_v03 : forall si k v n t, key_name si k -> field 40 si v -> is_nni n v -> ms_as_time n t -> is_command (V03 si) k t
| cmd_v02 : forall nm pre ct cn ci cv si k n t, n_comps nm = pre ++ [ct; cn; ci; cv] -> v02_info ci si -> key_name si k ->
    is_nni n (c_val ct) -> ms_as_time n t -> is_command (V02 nm) k t.
(* the fields of a v0.3 signed Interest *)
Definition opt_field (t : N) (si : siginfo) (P : bytes -> Prop) (absent : Prop) : Prop := (exists v, field t si v /\ P v) \/ (no_field t si /\ absent).
Record is_signed (si : siginfo) (v : svals) : Prop := {
  is_key : key_name si (sv_key v);
  is_ts : opt_field 40 si (fun b => exists n t, is_nni n b /\ ms_as_time n t /\ sv_ts v = Some t) (sv_ts v = None);
  is_seq : opt_field 42 si (fun b => exists n, is_nni n b /\ sv_seq v = Some n) (sv_seq v = None);
  is_nonce : opt_field 38 si (fun b => sv_nonce v = Some b) (sv_nonce v = None) }.

(* ---- observations ---- *)
Definition ob_steady {A} (x : iobs A) : option Z :=
  match x with ObPass _ _ t _ | ObRefuse _ t _ | ObThrow _ t _ | ObDone _ t _ => Some t | _ => None end.
(* the steady clock does not go back *)
Definition in_order {A} (t : list (iobs A)) : Prop :=
  forall t1 x t2 y t3 a b, t = t1 ++ x :: t2 ++ y :: t3 -> ob_steady x = Some a -> ob_steady y = Some b -> a <= b.
Definition checked_in {A} (id : N) (t : list (iobs A)) : Prop := exists sys st a, In (ObPass id sys st a) t.
(* in t, Interests of key k are accepted only after having been checked in t *)
Definition one_by_one {A} (kf : A -> option (list key)) (k : list key) (t : list (iobs A)) : Prop :=
  forall id u a, In (ObDone id u a) t -> kf a = Some k -> checked_in id t.
(* the number of other keys with accepted Interests in t is less than max *)
Definition few_others {A} (kf : A -> option (list key)) (k : list key) (max : Z) (t : list (iobs A)) : Prop :=
  max < 0 \/ exists ks, Z.of_N (nlen ks) < max /\ forall id u a k2, In (ObDone id u a) t -> kf a = Some k2 -> k2 <> k -> In k2 ks.
Definition ckey (a : list key * Z) : option (list key) := Some (fst a).
Definition skey (a : option svals) : option (list key) := option_map sv_key a.
(* how many Interests of key k are accepted in t *)
Fixpoint accepted_of {A} (kf : A -> option (list key)) (k : list key) (t : list (iobs A)) : Z :=
  match t with
  | [] => 0
  | ObDone _ _ a :: t' => (if match kf a with Some k2 => names_eqb k2 k | None => false end then 1 else 0) + accepted_of kf k t'
  | _ :: t' => accepted_of kf k t'
  end.
(* readings and spans that do not overflow *)
Definition small (z : Z) : Prop := - 2 ^ 61 <= z <= 2 ^ 61.
Definition small_ev (e : iev) : Prop := match e with EvCheck a b _ => small a /\ small b | EvDone _ b => small b | EvDrop _ => True end.
(* the timestamp number in an Interest, and that it fits in the clock's type *)
Definition stamp (i : sint) (n : N) : Prop :=
  match i with
  | V03 si => exists v, field 40 si v /\ is_nni n v
  | V02 nm => exists pre ct cn ci cv, n_comps nm = pre ++ [ct; cn; ci; cv] /\ is_nni n (c_val ct)
  end.
Definition stamp_fits (e : iev) : Prop := match e with EvCheck _ _ i => forall n, stamp i n -> exists t, ms_as_time n t | _ => True end.
Definition no_check (e : iev) : Prop := match e with EvCheck _ _ _ => False | _ => True end.
Definition stamp_small (e : iev) : Prop := match e with EvCheck _ _ i => forall n, stamp i n -> exists t, ms_as_time n t /\ small t | _ => True end.
(* every acceptance in t was before u *)
Definition all_before {A} (u : Z) (t : list (iobs A)) : Prop := forall id u2 a, In (ObDone id u2 a) t -> u2 < u.
