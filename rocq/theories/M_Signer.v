(* Model of security/interest-signer.{hpp,cpp} *)
From Coq Require Import ZArith.
From Verif Require Import Base M_Tlv M_Name M_Packet M_Control.
Open Scope N_scope.

(* interest-signer.hpp:85-88.  Times are nanoseconds since the Unix epoch in a signed 64-bit integer (boost::chrono::system_clock). *)
Record isigner := mkIs { is_ts : Z; is_seq : N }.
Definition is_new : isigner := mkIs 0 (two64 - 1).
(* arithmetic on time points; overflow is undefined behaviour *)
Definition i64 (z : Z) : res Z := if ((- 2 ^ 63 <=? z) && (z <? 2 ^ 63))%Z then Ok z else Err EUb.
(* interest-signer.cpp:69-81 getFreshTimestamp *)
Definition is_fresh (now : Z) (s : isigner) : res (Z * isigner) :=
  let! d := i64 (now - is_ts s) in
  if (0 <? Z.quot d 1000000)%Z then Ok (now, mkIs now (is_seq s))
  else let! t := i64 (is_ts s + 1000000) in Ok (t, mkIs t (is_seq s)).
(* util/time.hpp:263-268 toUnixTimestamp<milliseconds>, converted to uint64_t *)
Definition unix_ms (t : Z) : N := time_u64 (Z.quot t 1000000).

(* interest-signer.hpp:48-52 *)
Definition WantNonce : N := 1.
Definition WantTime : N := 2.
Definition WantSeqNum : N := 4.
Definition wants (f flags : N) : bool := negb (N.land flags f =? 0).
(* interest-signer.cpp:27-54 makeSignedInterest, up to the call of KeyChain::sign: the SignatureInfo passed to it.  `info` is that of the
   SigningInfo, nonce the output of the random generator, now the clock. *)
Definition is_signed (info : siginfo) (flags : N) (nonce : bytes) (now : Z) (s : isigner) : isigner * res siginfo :=
  if N.land flags (N.lor WantNonce (N.lor WantTime WantSeqNum)) =? 0 then (s, Err EInvalidArg)
  else
    let info1 := if wants WantNonce flags then si_setNonce (Some nonce) info else info in
    match (if wants WantTime flags then let! r := is_fresh now s in Ok (snd r, si_setNumber tSignatureTime (Some (unix_ms (fst r))) info1) else Ok (s, info1)) with
    | Err e => (s, Err e)
    | Ok (s2, info2) =>
        if wants WantSeqNum flags
        then let s3 := mkIs (is_ts s2) ((is_seq s2 + 1) mod two64) in (s3, Ok (si_setNumber tSignatureSeqNum (Some (is_seq s3)) info2))
        else (s2, Ok info2)
    end.
(* interest-signer.cpp:56-67 makeCommandInterest, up to the call of KeyChain::sign: the name of the Interest *)
Definition is_command (n : name) (nonce : N) (now : Z) (s : isigner) : isigner * res name :=
  match is_fresh now s with
  | Err e => (s, Err e)
  | Ok (t, s1) => (s1, let! c1 := fromNumber (unix_ms t) tGenericNameComponent in let! c2 := fromNumber nonce tGenericNameComponent in
                       Ok (nm_append c2 (nm_append c1 n)))
  end.

(* a history; the output of the signer, or nothing after undefined behaviour *)
Inductive isop := IsSigned (info : siginfo) (flags : N) (nonce : bytes) (now : Z) | IsCommand (n : name) (nonce : N) (now : Z).
Inductive isout := OInfo (s : siginfo) | OName (n : name).
Definition is_step (o : isop) (s : isigner) : isigner * res isout :=
  match o with
  | IsSigned i f x now => let (s1, r) := is_signed i f x now s in (s1, let! v := r in Ok (OInfo v))
  | IsCommand n x now => let (s1, r) := is_command n x now s in (s1, let! v := r in Ok (OName v))
  end.
Fixpoint is_run (l : list isop) (s : isigner) : isigner * list (res isout) :=
  match l with
  | [] => (s, [])
  | o :: l' => let (s1, r) := is_step o s in let (s2, rs) := is_run l' s1 in (s2, r :: rs)
  end.
