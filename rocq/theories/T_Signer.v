(* C53: timestamps and sequence numbers of signed and command Interests *)
From Coq Require Import ZArith List Lia ZifyBool ZifyNat ZifyN.
From Verif Require Import Base BaseLemmas M_Tlv M_Name M_Packet M_Control M_Signer S_Signer P_Signer.
Import ListNotations.
Open Scope N_scope.

(* whatever the clock shows (any values of its type, in any order) and however many requests are made, the timestamps handed out by one signer
   strictly increase in whole milliseconds, over both kinds of request *)
Theorem C53_increasing : forall l s rs i j o1 r1 a o2 r2 b, is_run l is_new = (s, rs) ->
  Forall (fun o => (- 2 ^ 63 <= clock o < 2 ^ 63)%Z) l -> (i < j)%nat ->
  nth_error l i = Some o1 -> nth_error rs i = Some r1 -> timed o1 = true -> stamped o1 r1 a ->
  nth_error l j = Some o2 -> nth_error rs j = Some r2 -> timed o2 = true -> stamped o2 r2 b -> a < b.
Proof.
  intros l s rs i j o1 r1 a o2 r2 b H F. destruct (run_increasing _ _ _ _ H) as (_ & _ & _ & I); [split; reflexivity || (cbn; lia)|exact F|]. apply I.
Qed.
Print Assumptions C53_increasing.

(* and none of them is behind the clock *)
Theorem C53_not_behind : forall l s rs i o r a, is_run l is_new = (s, rs) ->
  Forall (fun o => (- 2 ^ 63 <= clock o < 2 ^ 63)%Z) l ->
  nth_error l i = Some o -> nth_error rs i = Some r -> timed o = true -> stamped o r a -> (clock o / 1000000 <= Z.of_N a)%Z /\ 1 <= a.
Proof.
  intros l s rs i o r a H F N1 N2 T X. destruct (run_increasing _ _ _ _ H) as (_ & _ & I & _); [split; reflexivity || (cbn; lia)|exact F|].
  destruct (I _ _ _ _ N1 N2 T X) as [I1 I2]. split; [exact I2|]. cbn [is_new is_ts] in I1. rewrite Z.div_0_l in I1 by discriminate. lia.
Qed.
Print Assumptions C53_not_behind.

(* With clock readings from 1896 to 2116 and fewer than 2^41 requests nothing overflows and the outcome is determined: a request for nothing is
   rejected; any other one yields a timestamp equal to the clock in milliseconds or, if that is not larger, one more than the previous timestamp; the
   requested sequence numbers count from 0; the requested nonce is the generated one, and everything else in the SignatureInfo is as given. *)
Theorem C53_exact : forall l s rs i o r, is_run l is_new = (s, rs) -> Forall sane l -> N.of_nat (length l) < 2 ^ 41 ->
  nth_error l i = Some o -> nth_error rs i = Some r ->
  if useless o then r = Err EInvalidArg
  else rest_kept o r /\
       (forall v, nth_error (expected 0 l) i = Some (Some v) -> stamped o r v) /\
       (forall k, nth_error (expected_seq 0 l) i = Some (Some k) -> seq_is r k).
Proof.
  intros l s rs i o r H F L N1 N2.
  pose proof (run_exact l is_new s rs H) as X. cbn [is_new is_ts is_seq] in X. rewrite Z.div_0_l in X by discriminate.
  replace ((two64 - 1 + 1) mod two64) with 0 in X by reflexivity.
  specialize (X ltac:(split; reflexivity || (cbn; lia)) F ltac:(lia) ltac:(lia) i o r N1 N2). destruct (useless o); [exact X|]. destruct X as (X1 & X2 & X3). splits; auto.
  intros k K. rewrite <- (N.mod_small k two64); [auto|].
  assert (B : forall m l0 i0 k0, nth_error (expected_seq m l0) i0 = Some (Some k0) -> k0 < m + N.of_nat (length l0)).
  { intros m l0. revert m. induction l0 as [|o' l0 IH]; intros m [|i0] k0 E; cbn [expected_seq nth_error length] in *; try discriminate.
    - destruct (numbered o'); cbn [nth_error] in E; [|discriminate]. injection E as <-. lia.
    - destruct (numbered o'); cbn [nth_error] in E; apply IH in E; lia. }
  apply B in K. unfold two64. lia.
Qed.
Print Assumptions C53_exact.
(* in particular every request gets an outcome *)
Theorem C53_every_request : forall l s rs, is_run l is_new = (s, rs) -> Forall (fun o => (- 2 ^ 63 <= clock o < 2 ^ 63)%Z) l -> length rs = length l.
Proof. intros l s rs H F. apply (run_increasing _ _ _ _ H); [split; reflexivity || (cbn; lia)|exact F]. Qed.
Print Assumptions C53_every_request.

(* a clock that stalls and then steps back by a day; the third request asks for a sequence number only, the fourth for nothing *)
Definition C53_ops : list isop :=
  let t := 1700000000123456789%Z in
  [ IsSigned si_empty 3 (repeat Byte.x01 8) t; IsSigned si_empty 7 (repeat Byte.x02 8) t; IsSigned si_empty 4 [] t; IsSigned si_empty 8 [] t;
    IsCommand (nm_of [comp_ofString (str "a")]) 99 (t - 86400000000000)%Z; IsSigned si_empty 6 [] (t + 5000000)%Z ].
Example C53_ex : Forall sane C53_ops /\ expected 0 C53_ops = [Some 1700000000123; Some 1700000000124; None; None; Some 1700000000125; Some 1700000000128] /\
  expected_seq 0 C53_ops = [None; Some 0; Some 1; None; None; Some 2] /\
  map (fun r => match r with Ok (OInfo i) => Some (si_getNonce i, si_getNumber tSignatureTime i, si_getNumber tSignatureSeqNum i) | _ => None end) (snd (is_run C53_ops is_new)) =
  [ Some (Some (repeat Byte.x01 8), Ok (Some 1700000000123), Ok None); Some (Some (repeat Byte.x02 8), Ok (Some 1700000000124), Ok (Some 0)); Some (None, Ok None, Ok (Some 1)); None;
    None; Some (None, Ok (Some 1700000000128), Ok (Some 2)) ].
Proof.
  split; [|vm_compute; repeat split; reflexivity]. unfold C53_ops. repeat constructor; unfold sane; cbn [clock]; lia.
Qed.
