(* What an NDNLPv2 packet may look like, independently of the decoder. *)
From Verif Require Import Base M_Tlv S_Tlv M_Lp.
From Coq Require Import Sorted.

(* the types the library knows *)
Definition lp_known (t : N) : Prop := In t [80; 81; 82; 83; 98; 800; 812; 816; 820; 832; 836; 840; 844; 848].
(* an unknown type that a receiver must ignore: from 800 to 959, last two bits zero *)
Definition lp_ignorable (t : N) : Prop := ~ lp_known t /\ 800 <= t <= 959 /\ t mod 4 = 0.
(* ascending headers, where only Ack (836) may be repeated, then possibly the Fragment (80) *)
Definition lp_order (ts : list N) : Prop :=
  exists hs, StronglySorted (fun a b => a < b \/ a = b /\ a = 836) hs /\ ~ In 80 hs /\ (ts = hs \/ ts = hs ++ [80]).
Definition lp_types (p : lpp) : list N := map e_type (lp_es p).
Definition lp_legal (ts : list N) : Prop := Forall (fun t => lp_known t \/ lp_ignorable t) ts /\ lp_order ts.
(* what the fields of a packet are: type and value of each element *)
Definition lp_fields (p : lpp) : list (N * bytes) := map (fun e => (e_type e, e_val e)) (lp_es p).
(* the value can be read back: ranges are not empty, Nack reasons are not negative, the policy is NO_CACHE,
   and the announcement is an element of type Data *)
Definition lv_readable (f : lpf) (v : lpv) : Prop :=
  lv_typed f v /\
  match v with
  | VRange b => b <> []
  | VEnum z => if match f with FCachePolicy => true | _ => false end then z = 1%Z else (0 <= z)%Z
  | VAnn d => e_type d = tData /\ blockFromWire (e_wire d) = Ok d
  | _ => True
  end.
(* a reachable packet *)
Definition lp_reach (p : lpp) : Prop := exists ops, lp_run ops lp_default = p /\
  Forall (fun o => match o with LSet f v | LAdd f v => lv_typed f v | LDecode w => blockFromWire (e_wire w) = Ok w | _ => True end) ops.
(* NDNLPv2: what the octets of a field mean.  Sequence numbers have exactly 8 octets.  (Nack, CachePolicy and PrefixAnnouncement
   are structured; see C29.) *)
Definition field_value (f : lpf) (b : bytes) (v : lpv) : Prop :=
  match f with
  | FFragment | FPitToken => b <> [] /\ v = VRange b
  | FSequence | FAck | FTxSequence => nlen b = 8 /\ v = VNum (big_endian b)
  | FFragIndex | FFragCount | FNextHopFaceId | FIncomingFaceId | FCongestionMark => exists n, is_nni n b /\ v = VNum n
  | FNonDiscovery => b = [] /\ v = VEmpty
  | FNack | FCachePolicy | FPrefixAnnouncement => False
  end.
Definition structured (f : lpf) : bool := match f with FNack | FCachePolicy | FPrefixAnnouncement => true | _ => false end.
(* the type numbers of NDNLPv2 *)
Definition lp_type_of (f : lpf) : N :=
  match f with
  | FFragment => 80 | FSequence => 81 | FFragIndex => 82 | FFragCount => 83 | FPitToken => 98 | FNack => 800 | FIncomingFaceId => 812
  | FNextHopFaceId => 816 | FCachePolicy => 820 | FCongestionMark => 832 | FAck => 836 | FTxSequence => 840 | FNonDiscovery => 844 | FPrefixAnnouncement => 848
  end.
