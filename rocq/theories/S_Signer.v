(* Vocabulary for C53: what the signer should produce for a history of requests, and how to read it off the result *)
From Coq Require Import ZArith.
From Verif Require Import Base M_Tlv M_Name M_Packet M_Signer.
Open Scope N_scope.

Definition clock (o : isop) : Z := match o with IsSigned _ _ _ now | IsCommand _ _ now => now end.
(* requests that ask for a timestamp, for a sequence number, and for nothing at all *)
Definition timed (o : isop) : bool := match o with IsSigned _ f _ _ => N.testbit f 1 | IsCommand _ _ _ => true end.
Definition numbered (o : isop) : bool := match o with IsSigned _ f _ _ => N.testbit f 2 | IsCommand _ _ _ => false end.
Definition useless (o : isop) : bool := match o with IsSigned _ f _ _ => negb (N.testbit f 0 || N.testbit f 1 || N.testbit f 2) | IsCommand _ _ _ => false end.

(* the timestamp (in milliseconds) carried by the outcome of a request: SignatureTime, or the last but one component of the name *)
Definition stamped (o : isop) (r : res isout) (ms : N) : Prop :=
  match o, r with
  | IsSigned _ _ _ _, Ok (OInfo i) => si_getNumber tSignatureTime i = Ok (Some ms)
  | IsCommand n x _, Ok (OName m) => exists c1 c2, n_comps m = n_comps n ++ [c1; c2] /\ toNumber c1 = Ok ms /\ (x < 2 ^ 64 -> toNumber c2 = Ok x)
  | _, _ => False
  end.
Definition seq_is (r : res isout) (k : N) : Prop := match r with Ok (OInfo i) => si_getNumber tSignatureSeqNum i = Ok (Some k) | _ => False end.

(* the timestamp is the clock in milliseconds, or one more than the previous timestamp if that is larger *)
Fixpoint expected (prev : Z) (l : list isop) : list (option N) :=
  match l with
  | [] => []
  | o :: l' => if timed o then let v := Z.max (clock o / 1000000) (prev + 1) in Some (Z.to_N v) :: expected v l' else None :: expected prev l'
  end.
(* sequence numbers count the requests for one *)
Fixpoint expected_seq (next : N) (l : list isop) : list (option N) :=
  match l with
  | [] => []
  | o :: l' => if numbered o then Some next :: expected_seq (next + 1) l' else None :: expected_seq next l'
  end.
(* clock readings between 1896 and 2116 *)
Definition sane (o : isop) : Prop := (- 2 ^ 61 <= clock o <= 2 ^ 62)%Z.
(* what is left alone: everything that was not asked for *)
Definition rest_kept (o : isop) (r : res isout) : Prop :=
  match o, r with
  | IsSigned i f x _, Ok (OInfo j) =>
      si_type j = si_type i /\ si_key j = si_key i /\
      (if N.testbit f 0 then si_getNonce j = Some x else si_getNonce j = si_getNonce i) /\
      (N.testbit f 1 = false -> si_getNumber tSignatureTime j = si_getNumber tSignatureTime i) /\
      (N.testbit f 2 = false -> si_getNumber tSignatureSeqNum j = si_getNumber tSignatureSeqNum i) /\
      forall t, t <> tSignatureNonce -> t <> tSignatureTime -> t <> tSignatureSeqNum -> si_getCustomTlv t j = si_getCustomTlv t i
  | IsCommand _ _ _, Ok (OName _) => True
  | _, _ => False
  end.
