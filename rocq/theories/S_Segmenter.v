(* What a segmented object is. *)
From Verif Require Import Base S_Tlv M_Tlv M_Name S_Name M_Packet S_Packet.

Definition content (d : data) : bytes := c_val (d_content d).
(* d is packet number i out of count: its name, MetaInfo and SignatureInfo as given, the number of the last packet as
   final block id, and signed *)
Definition seg_packet_ok (conv : convention) (signer : bytes -> bytes) (si : siginfo) (n : name) (f ct count i : N) (d : data) : Prop :=
  exists ci cl e u, fromKind conv KSegment i = Ok ci /\ fromKind conv KSegment (count - 1) = Ok cl /\
    nkey (d_name d) = nkey n ++ [ckey ci] /\ mi_fields (d_meta d) = (ct, f, Some (ckey cl), []) /\
    si_fields (d_sinfo d) = si_fields si /\
    d_wire d = Some e /\ (forall d0, da_decode e d0 = (d, None)) /\
    da_signedRange d = (d, Ok u) /\ ckey (d_sval d) = (23, signer u).
Definition segs_ok (conv : convention) (signer : bytes -> bytes) (si : siginfo) (n : name) (f ct : N) (segs : list data) : Prop :=
  segs <> [] /\ forall i d, nth_error segs i = Some d -> seg_packet_ok conv signer si n f ct (nlen segs) (N.of_nat i) d.
(* the arguments are in the ranges of their types and the SignatureInfo can be encoded *)
Definition seg_args_ok (n : name) (f : Z) (ct : N) (si : siginfo) : Prop :=
  Forall ctype_ok (n_comps n) /\ (0 <= f <= 9223372036854775807)%Z /\ ct < 2 ^ 32 /\ si_ok si /\ si_type si <> None /\
  (forall k t, si_key si = Some k -> kl_loc k <> KlOther t).
