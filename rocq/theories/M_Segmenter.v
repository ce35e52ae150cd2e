(* Model of util/segmenter.cpp *)
From Verif Require Import Base M_Tlv M_Name M_Packet.

Section Segmenter.
Variable conv : convention.            (* name::setConventionEncoding, name-component.cpp:83-94 *)
Variable signer : bytes -> bytes.      (* KeyChain::sign with the given SigningInfo: the signature over the signed portion *)
Variable sinfo : siginfo.              (* and the SignatureInfo it prepares *)

(* segmenter.cpp:51-54, 86-89, 97-100: a new Data with name, ContentType, FreshnessPeriod *)
Definition seg_packet (n : name) (i : N) (f : Z) (ct : N) : res data :=
  let! c := fromKind conv KSegment i in
  match da_setFreshnessPeriod f (da_setContentType ct (da_setName (nm_append c n) da_empty)) with
  | (d, None) => Ok d
  | (_, Some x) => Err x
  end.
(* segmenter.cpp:58, 108 m_keyChain.sign *)
Definition seg_sign (d : data) : res data :=
  match da_sign signer sinfo d with (d', Ok _) => Ok d' | (_, Err x) => Err x end.

(* segmenter.cpp:48-62 the do-while loop; fuel: number of octets, plus one *)
Fixpoint seg_loop (fuel : nat) (buf : bytes) (n : name) (max : N) (f : Z) (ct : N) (final : comp) (i : N) : res (list data) :=
  match fuel with
  | O => Err EFuel
  | S k =>
      let segLen := N.min (nlen buf) max in
      let! d := seg_packet n i f ct in
      let! d' := seg_sign (da_setContent (ntake segLen buf) (da_setFinalBlock (Some final) d)) in
      match ndrop segLen buf with
      | [] => Ok [d']
      | rest => let! l := seg_loop k rest n max f ct final (i + 1) in Ok (d' :: l)
      end
  end.
(* segmenter.cpp:34-67 segment(span) *)
Definition seg_buffer (buf : bytes) (n : name) (max : N) (f : Z) (ct : N) : res (list data) :=
  if max =? 0 then Err EInvalidArg else
  let num := 1 + (nlen buf - (match buf with [] => 0 | _ => 1 end)) / max in
  let! final := fromKind conv KSegment (num - 1) in
  let! l := seg_loop (S (length buf)) buf n max f ct final 0 in
  if nlen l =? num then Ok l else Err EAssert.

(* segmenter.cpp:79-93 the loop over an input stream.  reads: the results of the successive
   boost::iostreams::read(input, ..., maxSegmentSize), which a stream may cut as it likes; no octet means end of file. *)
Fixpoint seg_reads (reads : list bytes) (n : name) (f : Z) (ct : N) (i : N) : res (list data) :=
  match reads with
  | [] | [] :: _ => Ok []
  | r :: reads' =>
      let! d := seg_packet n i f ct in
      let! l := seg_reads reads' n f ct (i + 1) in
      Ok (da_setContentBuf r d :: l)
  end.
(* segmenter.cpp:69-113 segment(std::istream) *)
Definition seg_stream (reads : list bytes) (n : name) (max : N) (f : Z) (ct : N) : res (list data) :=
  if max =? 0 then Err EInvalidArg else
  let! l := seg_reads reads n f ct 0 in
  let! l := match l with [] => let! d := seg_packet n 0 f ct in Ok [d] | _ => Ok l end in
  let! final := fromKind conv KSegment (nlen l - 1) in
  map_res (fun d => seg_sign (da_setFinalBlock (Some final) d)) l.
End Segmenter.
