(* Model of mgmt/status-dataset-context.cpp and of the part of mgmt/dispatcher.cpp that turns its segments into Data *)
From Coq Require Import ZArith.
From Verif Require Import Base M_Tlv M_Name M_Packet.

(* status-dataset-context.hpp:118-123 State *)
Inductive sdstate := SdInitial | SdResponded | SdFinalized.
(* the calls made to m_dataSender and m_nackSender that returned; the ControlResponse is kept as the octets of its encoding *)
Inductive sdev :=
  | SdData (n : name) (content : bytes) (final : bool)
  | SdNack (resp : bytes).
(* status-dataset-context.hpp:109-124.  sd_log and sd_calls (number of calls made to the two senders) are for observation only. *)
Record sdctx := mkSd {
  sd_interest : name; sd_prefix : name; sd_buf : bytes; sd_segno : N; sd_state : sdstate; sd_log : list sdev; sd_calls : nat }.
Definition sdPrefix v s := mkSd (sd_interest s) v (sd_buf s) (sd_segno s) (sd_state s) (sd_log s) (sd_calls s).
Definition sdBuf v s := mkSd (sd_interest s) (sd_prefix s) v (sd_segno s) (sd_state s) (sd_log s) (sd_calls s).
Definition sdSegno v s := mkSd (sd_interest s) (sd_prefix s) (sd_buf s) v (sd_state s) (sd_log s) (sd_calls s).
Definition sdState v s := mkSd (sd_interest s) (sd_prefix s) (sd_buf s) (sd_segno s) v (sd_log s) (sd_calls s).

(* status-dataset-context.cpp:26; encoding/tlv.hpp MAX_NDN_PACKET_SIZE = 8800 *)
Definition MAX_PAYLOAD_LENGTH : N := 8800 - 800.

Section Context.
Variable conv : convention.    (* name::getConventionEncoding *)
Variable dconv : convention.   (* name::getConventionDecoding *)
Variable throws : nat -> bool. (* does the n-th call of a sender throw (signing can fail)? *)

(* a call of m_dataSender or m_nackSender *)
Definition sd_emit (ev : sdev) (s : sdctx) : sdctx * option err :=
  if throws (sd_calls s)
  then (mkSd (sd_interest s) (sd_prefix s) (sd_buf s) (sd_segno s) (sd_state s) (sd_log s) (S (sd_calls s)), Some ERuntime)
  else (mkSd (sd_interest s) (sd_prefix s) (sd_buf s) (sd_segno s) (sd_state s) (sd_log s ++ [ev]) (S (sd_calls s)), None).

(* status-dataset-context.cpp:38-59 setPrefix; clock: the time read by appendVersion (name.cpp:218-225) *)
Definition sd_setPrefix (p : name) (clock : N) (s : sdctx) : sdctx * option err :=
  match sd_state s with
  | SdInitial =>
      if negb (nm_isPrefixOf (sd_interest s) p) then (s, Some EInvalidArg)
      else match nm_at (-1) p with
           | Err x => (s, Some x)
           | Ok c =>
               if isKind dconv KSegment c then (s, Some EInvalidArg)
               else if isKind dconv KVersion c then (sdPrefix p s, None)
               else match fromKind conv KVersion clock with
                    | Ok v => (sdPrefix (nm_append v p) s, None)
                    | Err x => (sdPrefix p s, Some x)
                    end
           end
  | _ => (s, Some ELogic)
  end.
(* status-dataset-context.cpp:28-36 constructor *)
Definition sd_new (interest : name) (clock : N) : res sdctx :=
  match sd_setPrefix interest clock (mkSd interest nm_empty [] 0 SdInitial [] 0) with
  | (s, None) => Ok s
  | (_, Some x) => Err x
  end.

(* status-dataset-context.cpp:72-74, 93-94: m_dataSender(Name(m_prefix).appendSegment(i), Content(m_buffer), final) *)
Definition sd_segment (i : N) (final : bool) (s : sdctx) : sdctx * option err :=
  match fromKind conv KSegment i with
  | Err x => (s, Some x)
  | Ok c => sd_emit (SdData (nm_append c (sd_prefix s)) (sd_buf s) final) s
  end.
(* status-dataset-context.cpp:70-80 the loop of append; fuel: number of octets *)
Fixpoint sd_append_loop (fuel : nat) (bs : bytes) (s : sdctx) : sdctx * option err :=
  match bs with
  | [] => (s, None)
  | _ =>
      match fuel with
      | O => (s, Some EFuel)
      | S k =>
          let '(s1, r) :=
            if nlen (sd_buf s) =? MAX_PAYLOAD_LENGTH
            then match sd_segment (sd_segno s) false (sdSegno ((sd_segno s + 1) mod two64) s) with
                 | (s', None) => (sdBuf [] s', None)
                 | p => p
                 end
            else (s, None) in
          match r with
          | Some x => (s1, Some x)
          | None =>
              let n := N.min (nlen bs) (MAX_PAYLOAD_LENGTH - nlen (sd_buf s1)) in
              sd_append_loop k (ndrop n bs) (sdBuf (sd_buf s1 ++ ntake n bs) s1)
          end
      end
  end.
(* status-dataset-context.cpp:61-81 append *)
Definition sd_append (bs : bytes) (s : sdctx) : sdctx * option err :=
  match sd_state s with
  | SdFinalized => (s, Some ELogic)
  | _ => sd_append_loop (length bs) bs (sdState SdResponded s)
  end.
(* status-dataset-context.cpp:83-95 end *)
Definition sd_end (s : sdctx) : sdctx * option err :=
  match sd_state s with
  | SdFinalized => (s, Some ELogic)
  | _ =>
      let s1 := sdState SdFinalized s in
      if MAX_PAYLOAD_LENGTH <? nlen (sd_buf s1) then (s1, Some EAssert) else sd_segment (sd_segno s1) true s1
  end.
(* status-dataset-context.cpp:97-106 reject *)
Definition sd_reject (resp : bytes) (s : sdctx) : sdctx * option err :=
  match sd_state s with
  | SdInitial => sd_emit (SdNack resp) (sdState SdFinalized s)
  | _ => (s, Some ELogic)
  end.

(* what a StatusDatasetHandler can do with the context *)
Inductive sdop := SdSetPrefix (p : name) (clock : N) | SdAppend (bs : bytes) | SdEnd | SdReject (resp : bytes).
Definition sd_step (o : sdop) (s : sdctx) : sdctx * option err :=
  match o with
  | SdSetPrefix p clock => sd_setPrefix p clock s
  | SdAppend bs => sd_append bs s
  | SdEnd => sd_end s
  | SdReject r => sd_reject r s
  end.
(* a sequence of calls, with the outcome of each (an exception is caught by the handler) *)
Fixpoint sd_run (l : list sdop) (s : sdctx) : sdctx * list (sdop * option err) :=
  match l with
  | [] => (s, [])
  | o :: l' => let '(s1, r) := sd_step o s in let '(s2, rs) := sd_run l' s1 in (s2, (o, r) :: rs)
  end.

(* ---- dispatcher ---- *)
Variable signer : bytes -> bytes.   (* m_keyChain.sign *)
Variable sinfo : siginfo.

(* dispatcher.hpp SendDestination *)
Inductive dest := ToFace | ToIms | ToFaceAndIms.
(* dispatcher.cpp:130-139 sendData up to the signature; the rest (CachePolicy tag, insertion in the in-memory storage, Face::put) is the pair (Data, destination) *)
Definition dp_sendData (n : name) (content : blk) (m : metainfo) (d : dest) : res (data * dest) :=
  match da_setContentBlock content (da_of n) with
  | (_, Some x) => Err x
  | (d1, None) =>
      match da_setFreshnessPeriod 1000 (da_setMetaInfo m d1) with
      | (_, Some x) => Err x
      | (d2, None) => match da_sign signer sinfo d2 with (d3, Ok _) => Ok (d3, d) | (_, Err x) => Err x end
      end
  end.
(* dispatcher.cpp:281-297 sendStatusDatasetSegment *)
Definition dp_segment (n : name) (content : bytes) (final : bool) : res (data * dest) :=
  let! c := nm_get (-1) n in
  let! i := toKind dconv KSegment c in
  dp_sendData n (comp_of_elem (mkBlock tContent content)) (if final then mi_setFinalBlock (Some c) mi_empty else mi_empty)
    (if i =? 0 then ToFaceAndIms else ToIms).
(* dispatcher.cpp:213-223 sendControlResponse(resp, interest, true); resp: the encoding of the ControlResponse, a Block of type 101
   (tlv-nfd.hpp), which setContent wraps in a Content element *)
Definition dp_nack (interest : name) (resp : blk) : res (data * dest) :=
  dp_sendData interest resp (mi_setType 3 mi_empty) ToFace.
End Context.
