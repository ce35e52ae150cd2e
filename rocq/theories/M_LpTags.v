(* Model of impl/lp-field-tag.hpp, of the sending of packets in impl/face-impl.hpp and of their reception in face.cpp: tags and link fields. *)
From Verif Require Import Base M_Tlv M_Lp.
Open Scope list_scope.
Open Scope N_scope.

(* impl/face-impl.hpp:336-351 the result of sending: the block given to the transport, OversizedPacketError, or another exception *)
Inductive sent := Sent (b : elem) | Oversized | Threw (e : err).
(* impl/lp-field-tag.hpp:30-38 addFieldFromTag: o is the value of the tag, if there is one (detail/tag-host.hpp:70-80) *)
Definition addFieldFromTag (f : lpf) (o : option lpv) (p : res lpp) : res lpp :=
  let! q := p in match o with None => Ok q | Some v => match lp_add f v q with (q', None) => Ok q' | (_, Some e) => Err e end end.
(* impl/face-impl.hpp:338-351 finishEncoding *)
Definition finishEncoding (p : res lpp) (w : elem) : sent :=
  match (let! q := p in if lp_empty q then Ok w else let! q' := addFieldFromTag FFragment (Some (VRange (e_wire w))) (Ok q) in fst (lp_encode q')) with
  | Err e => Threw e
  | Ok b => if MAX_NDN_PACKET_SIZE <? nlen (e_wire b) then Oversized else Sent b
  end.
(* impl/face-impl.hpp:104-110: expressInterest; w is the encoding of the Interest *)
Definition sendInterest (nextHop congestion : option lpv) (w : elem) : sent :=
  finishEncoding (addFieldFromTag FCongestionMark congestion (addFieldFromTag FNextHopFaceId nextHop (Ok lp_default))) w.
(* impl/face-impl.hpp:228-233: putData *)
Definition sendData (cachePolicy congestion : option lpv) (w : elem) : sent :=
  finishEncoding (addFieldFromTag FCongestionMark congestion (addFieldFromTag FCachePolicy cachePolicy (Ok lp_default))) w.
(* impl/face-impl.hpp:247-253: putNack; w is the encoding of the Interest *)
Definition sendNack (header : lpv) (congestion : option lpv) (w : elem) : sent :=
  finishEncoding (addFieldFromTag FCongestionMark congestion (addFieldFromTag FNack (Some header) (Ok lp_default))) w.

(* face.cpp:310-342 what the face makes of an element: an Interest, Nack or Data (as element) with the tags for IncomingFaceId and CongestionMark, or nothing *)
Inductive received := RInterest (w : elem) (incoming congestion : option lpv) | RNack (w : elem) (header : lpv) (incoming congestion : option lpv)
  | RData (w : elem) (incoming congestion : option lpv) | RNothing.
(* impl/lp-field-tag.hpp:40-47 addTagFromField, on a new packet *)
Definition addTagFromField (f : lpf) (p : lpp) : res (option lpv) := if lp_has f p then let! v := lp_get f 0 p in Ok (Some v) else Ok None.
(* face.cpp:310-342 onReceiveElement; decoding of the Interest or Data is left to the models of those (M_Interest, M_Packet) *)
Definition onReceiveElement (b : elem) : res received :=
  match lp_decode b lp_default with
  | (_, Some e) => Err e
  | (p, None) =>
    let! fr := lp_get FFragment 0 p in
    match fr with
    | VRange x =>
      let! w := blockFromWire x in
      if e_type w =? tInterest then
        if lp_has FNack p then
          let! h := lp_get FNack 0 p in let! i := addTagFromField FIncomingFaceId p in let! c := addTagFromField FCongestionMark p in Ok (RNack w h i c)
        else let! i := addTagFromField FIncomingFaceId p in let! c := addTagFromField FCongestionMark p in Ok (RInterest w i c)
      else if e_type w =? tData then let! i := addTagFromField FIncomingFaceId p in let! c := addTagFromField FCongestionMark p in Ok (RData w i c)
      else Ok RNothing
    | _ => Err ELogic
    end
  end.
