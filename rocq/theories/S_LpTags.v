(* Vocabulary of the statements about tags and link fields. *)
From Verif Require Import Base M_Tlv M_Lp S_Lp.

(* a packet whose fields are exactly those that exp gives a value *)
Definition has_exactly (p : lpp) (exp : lpf -> option lpv) : Prop :=
  forall f, match exp f with None => lp_count f p = 0%nat | Some v => lp_count f p = 1%nat /\ lp_get f 0 p = Ok v end.
(* the receiver of a block finds the network packet w and exactly these fields *)
Definition carries (b w : elem) (exp : lpf -> option lpv) : Prop :=
  blockFromWire (e_wire b) = Ok b /\ exists p, lp_decode b lp_default = (p, None) /\ has_exactly p (fun f => match f with FFragment => Some (VRange (e_wire w)) | _ => exp f end).
(* the value of a tag, if any, can be read back *)
Definition tag_ok (f : lpf) (o : option lpv) : Prop := forall v, o = Some v -> lv_readable f v.
(* the encoding of an Interest or a Data *)
Definition net_packet (t : N) (w : elem) : Prop := e_type w = t /\ blockFromWire (e_wire w) = Ok w /\ nlen (e_wire w) < 2 ^ 62.
