(* Proofs about M_Tlv *)
From Coq Require Import Lia ZifyBool ZifyNat ZifyN.
From Verif Require Import Base BaseLemmas M_Tlv.
Ltac Zify.zify_post_hook ::= Z.div_mod_to_equations.

(* ---- big-endian digits ---- *)
Lemma be_fold_acc : forall l acc,
  fold_left (fun a b => a * 256 + bn b) l acc
  = acc * 256 ^ nlen l + be_val l.
Proof.
  induction l as [|b l IH]; intros acc.
  - change (nlen (@nil byte)) with 0. rewrite N.pow_0_r. unfold be_val. cbn. lia.
  - unfold be_val. cbn [fold_left]. rewrite IH, (IH (0 * 256 + bn b)).
    rewrite nlen_cons, N.pow_add_r, N.pow_1_r. lia.
Qed.

Lemma be_val_nil : be_val [] = 0.
Proof. reflexivity. Qed.

Lemma be_val_cons : forall b l, be_val (b :: l) = bn b * 256 ^ nlen l + be_val l.
Proof. intros. unfold be_val at 1. cbn [fold_left]. rewrite be_fold_acc. lia. Qed.

Lemma be_val_app : forall a b, be_val (a ++ b) = be_val a * 256 ^ nlen b + be_val b.
Proof. intros. unfold be_val at 1. rewrite fold_left_app. apply be_fold_acc. Qed.

Lemma be_val_lt : forall l, be_val l < 256 ^ nlen l.
Proof.
  induction l as [|b l IH].
  - change (nlen (@nil byte)) with 0. rewrite N.pow_0_r. unfold be_val. cbn. lia.
  - rewrite be_val_cons, nlen_cons, N.pow_add_r, N.pow_1_r.
    pose proof (bn_lt b). nia.
Qed.

Lemma be_enc_len : forall k n, nlen (be_enc k n) = N.of_nat k.
Proof.
  induction k as [|k IH]; intro n; cbn [be_enc]; [reflexivity|].
  rewrite nlen_cons, IH. lia.
Qed.

Lemma be_val_enc : forall k n, be_val (be_enc k n) = n mod 256 ^ N.of_nat k.
Proof.
  induction k as [|k IH]; intro n; cbn [be_enc].
  - rewrite be_val_nil. cbn. now rewrite N.mod_1_r.
  - rewrite be_val_cons, be_enc_len, IH, bn_nb.
    replace (N.of_nat (S k)) with (1 + N.of_nat k) by lia.
    rewrite N.pow_add_r, N.pow_1_r.
    set (m := 256 ^ N.of_nat k).
    assert (Hm : m <> 0) by (apply N.pow_nonzero; lia).
    rewrite (N.mul_comm 256 m), N.mod_mul_r by lia. lia.
Qed.

Lemma be_enc_val : forall l, be_enc (length l) (be_val l) = l.
Proof.
  intro l.
  assert (H : forall l m, be_enc (length l) (m * 256 ^ nlen l + be_val l) = l).
  { induction l0 as [|b l0 IH]; intro m; cbn [length be_enc]; auto.
    f_equal.
    - change (N.of_nat (length l0)) with (nlen l0).
      rewrite be_val_cons, nlen_cons, N.pow_add_r, N.pow_1_r.
      pose proof (be_val_lt l0) as Hl. set (p := 256 ^ nlen l0) in *.
      assert (Hp : p <> 0) by (apply N.pow_nonzero; lia).
      replace (m * (256 * p) + (bn b * p + be_val l0))
        with (be_val l0 + (m * 256 + bn b) * p) by lia.
      rewrite N.div_add by lia. rewrite (N.div_small (be_val l0)) by lia.
      rewrite <- (nb_bn b) at 2. apply bn_inj. rewrite !bn_nb.
      rewrite N.add_0_l. rewrite (N.add_comm (m*256)), N.mod_add by lia. reflexivity.
    - rewrite be_val_cons, nlen_cons, N.pow_add_r, N.pow_1_r.
      replace (m * (256 * 256 ^ nlen l0) + (bn b * 256 ^ nlen l0 + be_val l0))
        with ((m * 256 + bn b) * 256 ^ nlen l0 + be_val l0) by lia.
      apply IH. }
  specialize (H l 0). rewrite N.mul_0_l, N.add_0_l in H. exact H.
Qed.

Lemma be_val_enc_small : forall k n, n < 256 ^ N.of_nat k -> be_val (be_enc k n) = n.
Proof. intros. rewrite be_val_enc. apply N.mod_small; auto. Qed.

(* ---- readNumber ---- *)
Lemma readNumber_app : forall d rest, readNumber (nlen d) (d ++ rest) = Some (be_val d, rest).
Proof.
  intros. unfold readNumber. rewrite nlen_app.
  destruct (nlen d + nlen rest <? nlen d) eqn:E; [lia|].
  now rewrite ntake_app, ndrop_app.
Qed.

Lemma readNumber_inv : forall size inp n rest,
  readNumber size inp = Some (n, rest) ->
  exists d, inp = d ++ rest /\ nlen d = size /\ n = be_val d.
Proof.
  intros size inp n rest H. unfold readNumber in H.
  destruct (nlen inp <? size) eqn:E; [discriminate|].
  injection H as <- <-. exists (ntake size inp).
  rewrite ntake_ndrop, nlen_ntake by lia. auto.
Qed.

Lemma readNumber_be : forall k n rest, n < 256 ^ N.of_nat k ->
  readNumber (N.of_nat k) (be_enc k n ++ rest) = Some (n, rest).
Proof.
  intros. pose proof (readNumber_app (be_enc k n) rest) as R.
  rewrite be_enc_len in R. rewrite R, be_val_enc_small by auto. reflexivity.
Qed.

(* ---- VAR-NUMBER ---- *)
Lemma encVarNumber_len : forall n, nlen (encVarNumber n) = sizeOfVarNumber n.
Proof.
  intro n. unfold encVarNumber, sizeOfVarNumber.
  destruct (n <? 253); [reflexivity|].
  destruct (n <=? 65535); [reflexivity|].
  destruct (n <=? 4294967295); reflexivity.
Qed.

Lemma encVarNumber_nonempty : forall n, encVarNumber n <> [].
Proof.
  intros n H. assert (L := encVarNumber_len n). rewrite H in L. cbn in L.
  unfold sizeOfVarNumber in L.
  destruct (n <? 253); [discriminate|].
  destruct (n <=? 65535); [discriminate|].
  destruct (n <=? 4294967295); discriminate.
Qed.

Lemma readVarNumber_enc : forall n rest, n < two64 ->
  readVarNumber (encVarNumber n ++ rest) = Some (n, rest).
Proof.
  intros n rest H. unfold encVarNumber.
  destruct (n <? 253) eqn:E1.
  { cbn [app readVarNumber]. rewrite bn_nb, N.mod_small by lia.
    rewrite E1. reflexivity. }
  destruct (n <=? 65535) eqn:E2.
  { cbn [app]. unfold readVarNumber. rewrite bn_nb. change (253 mod 256) with 253.
    change (253 <? 253) with false. cbv beta iota. change (2 ^ N.land 253 3) with (N.of_nat 2).
    apply readNumber_be. cbn. lia. }
  destruct (n <=? 4294967295) eqn:E3.
  { cbn [app]. unfold readVarNumber. rewrite bn_nb. change (254 mod 256) with 254.
    change (254 <? 253) with false. cbv beta iota. change (2 ^ N.land 254 3) with (N.of_nat 4).
    apply readNumber_be. cbn. lia. }
  { cbn [app]. unfold readVarNumber. rewrite bn_nb. change (255 mod 256) with 255.
    change (255 <? 253) with false. cbv beta iota. change (2 ^ N.land 255 3) with (N.of_nat 8).
    apply readNumber_be. unfold two64 in H. cbn. lia. }
Qed.

Lemma first_octet_pow : forall b, 253 <= bn b ->
  2 ^ N.land (bn b) 3 = 2 \/ 2 ^ N.land (bn b) 3 = 4 \/ 2 ^ N.land (bn b) 3 = 8.
Proof.
  intros b H. pose proof (bn_lt b).
  assert (bn b = 253 \/ bn b = 254 \/ bn b = 255) as [->|[->| ->]] by lia; cbn; auto.
Qed.

Lemma readVarNumber_inv : forall inp n rest, readVarNumber inp = Some (n, rest) ->
  n < two64 /\ exists d, d <> [] /\ inp = d ++ rest /\
    forall rest', readVarNumber (d ++ rest') = Some (n, rest').
Proof.
  intros inp n rest H. destruct inp as [|b inp]; [discriminate|].
  unfold readVarNumber in H.
  destruct (bn b <? 253) eqn:E.
  { injection H as <- <-. pose proof (bn_lt b). split; [unfold two64; lia|].
    exists [b]. repeat split; [discriminate|]. intro. cbn [app readVarNumber]. now rewrite E. }
  assert (Hp := first_octet_pow b ltac:(lia)).
  apply readNumber_inv in H as (d & -> & Hd & ->).
  split.
  { pose proof (be_val_lt d) as L. rewrite Hd in L.
    destruct Hp as [Hp|[Hp|Hp]]; rewrite Hp in L; cbn in L; unfold two64; lia. }
  exists (b :: d). repeat split; [discriminate|]. intro rest'. cbn [app]. unfold readVarNumber.
  rewrite E, <- Hd. apply readNumber_app.
Qed.

(* strict prefixes of what a reader consumed are rejected *)
Lemma readVarNumber_strict_prefix : forall d n p s,
  readVarNumber d = Some (n, []) -> d = p ++ s -> s <> [] -> readVarNumber p = None.
Proof.
  intros d n p s H Hd Hs.
  destruct (readVarNumber p) as [[m r]|] eqn:E; auto.
  exfalso. apply readVarNumber_inv in E as (_ & q & _ & Hp & Hq).
  specialize (Hq (r ++ s)). rewrite app_assoc, <- Hp, <- Hd, H in Hq.
  injection Hq as _ Hq. symmetry in Hq. apply app_eq_nil in Hq. tauto.
Qed.

(* ---- TLV-TYPE ---- *)
Lemma readType_enc : forall t rest, 0 < t -> t < two32 ->
  readType (encVarNumber t ++ rest) = Some (t, rest).
Proof.
  intros t rest H0 H. unfold readType. rewrite readVarNumber_enc by (unfold two64, two32 in *; lia).
  cbv beta iota. unfold tInvalid, two32 in *.
  destruct ((t =? 0) || (4294967295 <? t)) eqn:E; [lia|reflexivity].
Qed.

Lemma readType_inv : forall inp t rest, readType inp = Some (t, rest) ->
  0 < t /\ t < two32 /\ exists d, d <> [] /\ inp = d ++ rest /\
    forall rest', readType (d ++ rest') = Some (t, rest').
Proof.
  intros inp t rest H. unfold readType in H.
  destruct (readVarNumber inp) as [[n r]|] eqn:E; [|discriminate].
  destruct ((n =? tInvalid) || (4294967295 <? n)) eqn:E2; [discriminate|].
  injection H as -> ->. apply readVarNumber_inv in E as (_ & d & Hd & -> & Hr).
  unfold tInvalid, two32 in *. repeat split; try lia.
  exists d. repeat split; auto. intro rest'. unfold readType. rewrite Hr.
  unfold tInvalid. now rewrite E2.
Qed.

Lemma readType_X : forall inp,
  readTypeX inp = match readType inp with Some r => Ok r | None => Err ETlv end.
Proof.
  intro inp. unfold readTypeX, readType, readVarNumberX.
  destruct (readVarNumber inp) as [[n r]|]; cbn; auto.
  destruct ((n =? tInvalid) || (4294967295 <? n)); auto.
Qed.

(* ---- NonNegativeInteger ---- *)
Lemma encNNI_len : forall n, nlen (encNNI n) = sizeOfNonNegativeInteger n.
Proof.
  intro n. unfold encNNI, sizeOfNonNegativeInteger.
  destruct (n <=? 255); [reflexivity|].
  destruct (n <=? 65535); [reflexivity|].
  destruct (n <=? 4294967295); reflexivity.
Qed.

Lemma be_val_encNNI : forall n, n < two64 -> be_val (encNNI n) = n.
Proof.
  intros n H. unfold encNNI, two64 in *.
  destruct (n <=? 255) eqn:E1.
  { rewrite be_val_cons, be_val_nil, nlen_nil, bn_nb. cbn. rewrite N.mod_small by lia. lia. }
  destruct (n <=? 65535) eqn:E2; [apply be_val_enc_small; cbn; lia|].
  destruct (n <=? 4294967295) eqn:E3; apply be_val_enc_small; cbn; lia.
Qed.

Lemma sizeOfNNI_cases : forall n,
  sizeOfNonNegativeInteger n = 1 \/ sizeOfNonNegativeInteger n = 2 \/
  sizeOfNonNegativeInteger n = 4 \/ sizeOfNonNegativeInteger n = 8.
Proof.
  intro n. unfold sizeOfNonNegativeInteger.
  destruct (n <=? 255); auto. destruct (n <=? 65535); auto. destruct (n <=? 4294967295); auto.
Qed.

Lemma readNNI_enc : forall n rest, n < two64 ->
  readNonNegativeInteger (sizeOfNonNegativeInteger n) (encNNI n ++ rest) = Ok (n, rest).
Proof.
  intros n rest H. unfold readNonNegativeInteger.
  rewrite <- encNNI_len. rewrite readNumber_app, be_val_encNNI by auto.
  rewrite encNNI_len. destruct (sizeOfNNI_cases n) as [->|[->|[->| ->]]]; reflexivity.
Qed.

Lemma readNNI_ok_iff : forall len inp n rest,
  readNonNegativeInteger len inp = Ok (n, rest) <->
  (len = 1 \/ len = 2 \/ len = 4 \/ len = 8) /\
  exists d, inp = d ++ rest /\ nlen d = len /\ n = be_val d.
Proof.
  intros len inp n rest. unfold readNonNegativeInteger. split.
  - destruct ((len =? 1) || (len =? 2) || (len =? 4) || (len =? 8)) eqn:E; cbn [negb]; [|discriminate].
    intro H. destruct (readNumber len inp) as [[m r]|] eqn:R; cbn in H; [|discriminate].
    injection H as -> ->. split; [lia|]. now apply readNumber_inv.
  - intros (Hl & d & -> & Hd & ->).
    destruct ((len =? 1) || (len =? 2) || (len =? 4) || (len =? 8)) eqn:E; [|lia].
    cbn [negb]. rewrite <- Hd, readNumber_app. reflexivity.
Qed.

Lemma readNNIBlock_mk : forall t n, n < two64 -> readNNIBlock (mkNNIBlock t n) = Ok n.
Proof.
  intros t n H. unfold readNNIBlock, mkNNIBlock. cbn [e_val mkBlock].
  rewrite encNNI_len. pose proof (readNNI_enc n [] H) as R. rewrite app_nil_r in R.
  rewrite R. reflexivity.
Qed.

Lemma readNNIBlock_val : forall e n, n < two64 -> e_val e = encNNI n -> readNNIBlock e = Ok n.
Proof.
  intros e n H E. unfold readNNIBlock. rewrite E, encNNI_len.
  pose proof (readNNI_enc n [] H) as R. rewrite app_nil_r in R. rewrite R. reflexivity.
Qed.

Lemma readNNIBlock_lt : forall e n, readNNIBlock e = Ok n -> n < two64.
Proof.
  intros e n H. unfold readNNIBlock in H. inv_bind H. destruct a as [m r]. injection H as <-.
  apply readNNI_ok_iff in E as (Hl & d & _ & Hd & ->).
  pose proof (be_val_lt d) as L. rewrite Hd in L. cbn [fst].
  unfold two64. destruct Hl as [H|[H|[H|H]]]; rewrite H in L; cbn in L; lia.
Qed.

(* ---- element framing ---- *)

(* An element as it can appear in a wire: its header octets read as its type and length. *)
Definition elem_wf (e : elem) : Prop :=
  0 < e_type e /\ e_type e < two32 /\ nlen (e_val e) < two64 /\
  exists a b, e_hdr e = a ++ b /\ a <> [] /\ b <> [] /\
    (forall r, readType (a ++ r) = Some (e_type e, r)) /\
    (forall r, readVarNumber (b ++ r) = Some (nlen (e_val e), r)).

Lemma mkBlock_wf : forall t v, 0 < t -> t < two32 -> nlen v < two64 -> elem_wf (mkBlock t v).
Proof.
  intros t v H0 H1 H2. unfold elem_wf, mkBlock. cbn [e_type e_val e_hdr].
  repeat split; auto. exists (encVarNumber t), (encVarNumber (nlen v)).
  repeat split; auto using encVarNumber_nonempty.
  - intro r. now apply readType_enc.
  - intro r. now apply readVarNumber_enc.
Qed.

Lemma mkBlock_wire : forall t v, e_wire (mkBlock t v) = tlv_enc t v.
Proof. intros. unfold e_wire, mkBlock, tlv_enc. cbn. now rewrite app_assoc. Qed.

Lemma elem_eta : forall e, mkElem (e_type e) (e_hdr e) (e_val e) = e.
Proof. now intros []. Qed.

Lemma fromBuffer_wf : forall e rest, elem_wf e -> fromBuffer (e_wire e ++ rest) = Some (e, rest).
Proof.
  intros e rest (H0 & H1 & H2 & a & b & Hh & Ha & Hb & Ra & Rb).
  unfold fromBuffer, e_wire. rewrite Hh, <- !app_assoc, Ra, Rb.
  rewrite nlen_app. destruct (nlen (e_val e) + nlen rest <? nlen (e_val e)) eqn:E; [lia|].
  rewrite ntake_app, ndrop_app. do 2 f_equal.
  replace (a ++ b ++ e_val e ++ rest) with ((a ++ b) ++ (e_val e ++ rest)) by (now rewrite <- !app_assoc).
  replace (nlen ((a ++ b) ++ e_val e ++ rest) - (nlen (e_val e) + nlen rest)) with (nlen (a ++ b)).
  2:{ rewrite !nlen_app. lia. }
  rewrite ntake_app, <- Hh. apply elem_eta.
Qed.

Lemma fromBuffer_inv : forall inp e rest, fromBuffer inp = Some (e, rest) ->
  elem_wf e /\ inp = e_wire e ++ rest.
Proof.
  intros inp e rest H. unfold fromBuffer in H.
  destruct (readType inp) as [[t r1]|] eqn:ET; [|discriminate].
  destruct (readVarNumber r1) as [[len r2]|] eqn:EV; [|discriminate].
  destruct (nlen r2 <? len) eqn:EL; [discriminate|].
  injection H as <- <-.
  apply readType_inv in ET as (T0 & T1 & a & Ha & -> & Ra).
  apply readVarNumber_inv in EV as (L64 & b & Hb & -> & Rb).
  replace (nlen (a ++ b ++ r2) - nlen r2) with (nlen (a ++ b)) by (rewrite !nlen_app; lia).
  rewrite app_assoc, ntake_app.
  split.
  - unfold elem_wf. cbn [e_type e_val e_hdr].
    rewrite nlen_ntake by lia. repeat split; auto. exists a, b. auto.
  - unfold e_wire. cbn [e_hdr e_val]. now rewrite <- !app_assoc, ntake_ndrop.
Qed.

Lemma elem_wf_wire_len : forall e, elem_wf e -> 2 <= nlen (e_wire e).
Proof.
  intros e (_ & _ & _ & a & b & Hh & Ha & Hb & _). unfold e_wire.
  rewrite Hh, !nlen_app. destruct a; [easy|]. destruct b; [easy|]. rewrite !nlen_cons. lia.
Qed.

Lemma fromBuffer_strict_prefix : forall e p s, elem_wf e -> e_wire e = p ++ s -> s <> [] ->
  fromBuffer p = None.
Proof.
  intros e p s W H Hs.
  destruct (fromBuffer p) as [[e' r]|] eqn:E; auto. exfalso.
  apply fromBuffer_inv in E as [W' ->].
  assert (F : fromBuffer (e_wire e ++ []) = Some (e, [])) by (now apply fromBuffer_wf).
  rewrite app_nil_r, H, <- app_assoc, fromBuffer_wf in F by auto.
  injection F as _ F. apply app_eq_nil in F. tauto.
Qed.

Lemma fromBuffer_tlv : forall t v rest, 0 < t -> t < two32 -> nlen v < two64 ->
  fromBuffer (tlv_enc t v ++ rest) = Some (mkBlock t v, rest).
Proof. intros. rewrite <- mkBlock_wire. apply fromBuffer_wf. now apply mkBlock_wf. Qed.

Lemma blockFromSpan_eq : forall inp,
  blockFromSpan inp = match fromBuffer inp with Some (e, _) => Ok e | None => Err ETlv end.
Proof.
  intro inp. unfold blockFromSpan, fromBuffer. rewrite readType_X.
  destruct (readType inp) as [[t r1]|]; cbn; auto. unfold readVarNumberX.
  destruct (readVarNumber r1) as [[len r2]|]; cbn; auto.
  destruct (nlen r2 <? len); auto.
Qed.

Lemma blockFromWire_wf : forall e, elem_wf e -> blockFromWire (e_wire e) = Ok e.
Proof.
  intros e W. pose proof (elem_wf_wire_len e W) as L.
  destruct W as (H0 & H1 & H2 & a & b & Hh & Ha & Hb & Ra & Rb).
  unfold blockFromWire. destruct (e_wire e) as [|x l] eqn:Ew; [rewrite nlen_nil in L; lia|].
  rewrite <- Ew. unfold e_wire. rewrite Hh, <- app_assoc.
  rewrite readType_X, Ra. cbn [bind]. unfold readVarNumberX. rewrite Rb. cbn [of_opt bind].
  rewrite N.eqb_refl. cbn [negb].
  replace (nlen (a ++ b ++ e_val e) - nlen (e_val e)) with (nlen (a ++ b)) by (rewrite !nlen_app; lia).
  rewrite app_assoc, ntake_app, <- Hh. f_equal. apply elem_eta.
Qed.

Lemma blockFromWire_inv : forall inp e, blockFromWire inp = Ok e -> elem_wf e /\ inp = e_wire e.
Proof.
  intros inp e H. unfold blockFromWire in H. destruct inp as [|x l] eqn:Ei; [discriminate|].
  rewrite <- Ei in *. clear x l Ei.
  inv_bind H. destruct a as [t r1]. inv_bind H. destruct a as [len r2].
  rewrite readType_X in E. destruct (readType inp) as [[t' r1']|] eqn:ET; [|discriminate].
  injection E as -> ->. unfold readVarNumberX in E0.
  destruct (readVarNumber r1) as [[len' r2']|] eqn:EV; [|discriminate]. injection E0 as -> ->.
  destruct (len =? nlen r2) eqn:EL; cbn [negb] in H; [|discriminate].
  injection H as <-. apply N.eqb_eq in EL. subst len.
  apply readType_inv in ET as (T0 & T1 & a & Ha & -> & Ra).
  apply readVarNumber_inv in EV as (L64 & b & Hb & -> & Rb).
  replace (nlen (a ++ b ++ r2) - nlen r2) with (nlen (a ++ b)) by (rewrite !nlen_app; lia).
  rewrite app_assoc, ntake_app. split; [|reflexivity].
  unfold elem_wf. cbn [e_type e_val e_hdr]. repeat split; auto. exists a, b. auto.
Qed.

(* ---- parse ---- *)
Lemma parse_loop_S : forall f v, parse_loop (S f) v =
  match v with
  | [] => ([], PDone)
  | _ => match fromBuffer v with
         | Some (e, r) => let (es, st) := parse_loop f r in (e :: es, st)
         | None => ([], snd (parse_loop (S f) v))
         end
  end.
Proof.
  intros f v. destruct v as [|b v]; [reflexivity|].
  unfold fromBuffer. cbn [parse_loop].
  destruct (readType (b :: v)) as [[t r1]|]; [|reflexivity].
  destruct (readVarNumber r1) as [[len r2]|]; [|reflexivity].
  destruct (nlen r2 <? len); [reflexivity|].
  destruct (parse_loop f (ndrop len r2)) as [es st]. reflexivity.
Qed.

Lemma parse_loop_wf : forall es f, Forall elem_wf es -> (length (concat (map e_wire es)) < f)%nat ->
  parse_loop f (concat (map e_wire es)) = (es, PDone).
Proof.
  induction es as [|e es IH]; intros f W L; (destruct f as [|f]; [lia|]).
  - reflexivity.
  - inversion W as [|? ? We Wes]; subst. cbn [map concat] in *.
    pose proof (elem_wf_wire_len e We) as Le. unfold nlen in Le.
    rewrite parse_loop_S.
    destruct (e_wire e ++ concat (map e_wire es)) as [|x l] eqn:Ex.
    { apply (f_equal (@length _)) in Ex. rewrite app_length in Ex. cbn in Ex. lia. }
    rewrite <- Ex, fromBuffer_wf by auto.
    rewrite <- Ex in L. rewrite app_length in L. rewrite IH by (auto; lia). reflexivity.
Qed.

Lemma parse_loop_fuel : forall f v, (length v < f)%nat -> snd (parse_loop f v) <> PFuel.
Proof.
  induction f as [|f IH]; intros v L; [lia|].
  rewrite parse_loop_S. destruct v as [|b v]; [discriminate|].
  destruct (fromBuffer (b :: v)) as [[e r]|] eqn:E.
  - apply fromBuffer_inv in E as [W E]. pose proof (elem_wf_wire_len e W) as Le.
    specialize (IH r). destruct (parse_loop f r) as [es st] eqn:Ep. cbn [snd] in *. apply IH.
    unfold nlen in Le. rewrite E, app_length in L. lia.
  - cbn [snd]. cbn [parse_loop].
    destruct (readType (b :: v)) as [[t r1]|] eqn:ET; [|discriminate].
    destruct (readVarNumber r1) as [[len r2]|] eqn:EV; [|discriminate].
    destruct (nlen r2 <? len) eqn:EL; [discriminate|].
    unfold fromBuffer in E. rewrite ET, EV, EL in E. discriminate.
Qed.

Lemma parse_loop_inv : forall f v es, parse_loop f v = (es, PDone) ->
  Forall elem_wf es /\ v = concat (map e_wire es).
Proof.
  induction f as [|f IH]; intros v es H; [discriminate|].
  destruct v as [|b v].
  { injection H as <-. auto. }
  rewrite parse_loop_S in H.
  destruct (fromBuffer (b :: v)) as [[e r]|] eqn:E.
  - destruct (parse_loop f r) as [es' st'] eqn:Ep. injection H as <- ->.
    apply IH in Ep as [W ->]. apply fromBuffer_inv in E as [We ->]. cbn. auto.
  - exfalso. injection H as _ H. cbn [parse_loop] in H.
    destruct (readType (b :: v)) as [[t r1]|] eqn:ET; [|discriminate].
    destruct (readVarNumber r1) as [[len r2]|] eqn:EV; [|discriminate].
    destruct (nlen r2 <? len) eqn:EL; [discriminate|].
    unfold fromBuffer in E. rewrite ET, EV, EL in E. discriminate.
Qed.

Lemma parseValue_ok_iff : forall v es,
  parseValue v = Ok es <-> Forall elem_wf es /\ v = concat (map e_wire es).
Proof.
  intros v es. unfold parseValue. split.
  - destruct (parse_loop (S (length v)) v) as [es' []] eqn:E; try discriminate.
    intros [= <-]. now apply parse_loop_inv in E.
  - intros [W ->]. rewrite parse_loop_wf by (auto; lia). reflexivity.
Qed.

Lemma parseValue_no_fuel : forall v, parseValue v <> Err EFuel.
Proof.
  intros v H. unfold parseValue in H. pose proof (parse_loop_fuel (S (length v)) v ltac:(lia)) as F.
  destruct (parse_loop (S (length v)) v) as [es []]; cbn in *; congruence.
Qed.

Lemma parseValue_concat : forall es, Forall elem_wf es ->
  parseValue (concat (map e_wire es)) = Ok es.
Proof. intros. now apply parseValue_ok_iff. Qed.

Lemma concat_wire_inj : forall es es', Forall elem_wf es -> Forall elem_wf es' ->
  concat (map e_wire es) = concat (map e_wire es') -> es = es'.
Proof.
  intros es es' W W' H. assert (A := parseValue_concat es W). rewrite H, parseValue_concat in A by auto.
  now injection A.
Qed.

Lemma elem_eqb_eq : forall a b, elem_eqb a b = true <-> e_type a = e_type b /\ e_val a = e_val b.
Proof.
  intros a b. unfold elem_eqb. rewrite !andb_true_iff, !N.eqb_eq, bytes_eqb_eq. intuition congruence.
Qed.
