(* Proofs about M_Block *)
From Coq Require Import Lia ZifyBool ZifyNat ZifyN.
From Verif Require Import Base BaseLemmas M_Tlv P_Tlv M_Block S_Tlv S_Block.

(* ---- the specification's numbers agree with the model ---- *)
Lemma big_endian_be_val : forall d, big_endian d = be_val d.
Proof. induction d as [|b d IH]; [reflexivity|]. cbn [big_endian]. now rewrite be_val_cons, IH. Qed.

Lemma readVarNumber_iff : forall inp n rest,
  readVarNumber inp = Some (n, rest) <-> exists d, is_varnum n d /\ inp = d ++ rest.
Proof.
  intros inp n rest. split.
  - intro H. destruct inp as [|b inp]; [discriminate|]. unfold readVarNumber in H.
    destruct (bn b <? 253) eqn:E.
    + injection H as <- <-. exists [b]. split; [constructor; lia|reflexivity].
    + apply readNumber_inv in H as (d & -> & Hd & ->). exists (b :: d). split; [|reflexivity].
      rewrite <- big_endian_be_val. pose proof (bn_lt b).
      assert (bn b = 253 \/ bn b = 254 \/ bn b = 255) as [Hb|[Hb|Hb]] by lia;
        rewrite Hb in Hd; cbn in Hd.
      * now apply VN3. * now apply VN5. * now apply VN9.
  - intros (d & Hd & ->). inversion Hd as [b Hb|b d' Hb Hl|b d' Hb Hl|b d' Hb Hl]; subst; clear Hd;
      cbn [app]; unfold readVarNumber.
    + destruct (bn b <? 253) eqn:E; [reflexivity|lia].
    + rewrite Hb. change (253 <? 253) with false. cbv iota.
      change (2 ^ N.land 253 3) with 2. rewrite <- Hl, readNumber_app, big_endian_be_val. reflexivity.
    + rewrite Hb. change (254 <? 253) with false. cbv iota.
      change (2 ^ N.land 254 3) with 4. rewrite <- Hl, readNumber_app, big_endian_be_val. reflexivity.
    + rewrite Hb. change (255 <? 253) with false. cbv iota.
      change (2 ^ N.land 255 3) with 8. rewrite <- Hl, readNumber_app, big_endian_be_val. reflexivity.
Qed.

Lemma is_varnum_lt : forall n d, is_varnum n d -> n < two64.
Proof.
  intros n d H. assert (R : readVarNumber (d ++ []) = Some (n, [])).
  { apply readVarNumber_iff. eauto. }
  now apply readVarNumber_inv in R as [R _].
Qed.

Lemma encVarNumber_is : forall n, n < two64 -> is_varnum n (encVarNumber n).
Proof.
  intros n H. pose proof (readVarNumber_enc n [] H) as R.
  apply readVarNumber_iff in R as (d & Hd & E). rewrite !app_nil_r in E. now subst.
Qed.

Lemma is_varnum_shortest : forall n d, is_varnum n d -> sizeOfVarNumber n <= nlen d.
Proof.
  intros n d H. inversion H as [b Hb|b d' Hb Hl|b d' Hb Hl|b d' Hb Hl]; subst; clear H;
    rewrite ?nlen_cons, ?nlen_nil; unfold sizeOfVarNumber.
  - destruct (bn b <? 253) eqn:E; lia.
  - rewrite big_endian_be_val. pose proof (be_val_lt d') as L. rewrite Hl in L.
    change (256 ^ 2) with 65536 in L.
    destruct (_ <? 253); [lia|]. destruct (_ <=? 65535) eqn:E; [lia|]. lia.
  - rewrite big_endian_be_val. pose proof (be_val_lt d') as L. rewrite Hl in L.
    change (256 ^ 4) with 4294967296 in L.
    destruct (_ <? 253); [lia|]. destruct (_ <=? 65535) eqn:E; [lia|].
    destruct (_ <=? 4294967295) eqn:E2; [lia|]. lia.
  - destruct (_ <? 253); [lia|]. destruct (_ <=? 65535) eqn:E; [lia|].
    destruct (_ <=? 4294967295) eqn:E2; lia.
Qed.

Lemma readType_iff : forall inp t rest,
  readType inp = Some (t, rest) <-> 0 < t /\ t < 2 ^ 32 /\ exists d, is_varnum t d /\ inp = d ++ rest.
Proof.
  intros inp t rest. unfold readType. split.
  - destruct (readVarNumber inp) as [[n r]|] eqn:E; [|discriminate].
    destruct ((n =? tInvalid) || (4294967295 <? n)) eqn:E2; [discriminate|].
    intros [= -> ->]. apply readVarNumber_iff in E. unfold tInvalid in E2.
    change (2 ^ 32) with 4294967296. repeat split; auto; lia.
  - intros (H0 & H1 & H). apply readVarNumber_iff in H. rewrite H.
    change (2 ^ 32) with 4294967296 in H1. unfold tInvalid.
    destruct ((t =? 0) || (4294967295 <? t)) eqn:E2; [lia|reflexivity].
Qed.

Lemma varnum_read_ext : forall n d r, is_varnum n d -> readVarNumber (d ++ r) = Some (n, r).
Proof. intros. apply readVarNumber_iff. eauto. Qed.

Lemma is_varnum_nonempty : forall n d, is_varnum n d -> d <> [].
Proof. intros n d H. inversion H; discriminate. Qed.

Lemma elem_wf_is_tlv : forall e, elem_wf e <->
  (0 < e_type e /\ e_type e < 2 ^ 32 /\
   exists a b, is_varnum (e_type e) a /\ is_varnum (nlen (e_val e)) b /\ e_hdr e = a ++ b).
Proof.
  intro e. change (2 ^ 32) with two32. split.
  - intros (H0 & H1 & H2 & a & b & Hh & Ha & Hb & Ra & Rb). repeat split; auto.
    exists a, b. repeat split; auto.
    + specialize (Ra []). apply readType_iff in Ra as (_ & _ & d & Hd & E).
      rewrite !app_nil_r in E. now subst.
    + specialize (Rb []). apply readVarNumber_iff in Rb as (d & Hd & E).
      rewrite !app_nil_r in E. now subst.
  - intros (H0 & H1 & a & b & Ha & Hb & Hh). repeat split; auto.
    { now apply is_varnum_lt in Hb. }
    exists a, b. repeat split; eauto using is_varnum_nonempty.
    + intro r. apply readType_iff. eauto.
    + intro r. now apply varnum_read_ext.
Qed.

Lemma is_tlv_elem : forall t v w, is_tlv t v w <->
  exists e, elem_wf e /\ e_type e = t /\ e_val e = v /\ e_wire e = w.
Proof.
  intros t v w. split.
  - intros (H0 & H1 & a & b & Ha & Hb & ->). exists (mkElem t (a ++ b) v). split.
    + apply elem_wf_is_tlv. cbn. repeat split; auto. eauto.
    + cbn. repeat split; auto. unfold e_wire. cbn. now rewrite app_assoc.
  - intros (e & W & <- & <- & <-). apply elem_wf_is_tlv in W as (H0 & H1 & a & b & Ha & Hb & Hh).
    repeat split; auto. exists a, b. repeat split; auto. unfold e_wire. rewrite Hh. now rewrite app_assoc.
Qed.

Lemma fromBuffer_iff : forall inp e rest, fromBuffer inp = Some (e, rest) <->
  is_tlv (e_type e) (e_val e) (e_wire e) /\ inp = e_wire e ++ rest.
Proof.
  intros inp e rest. split.
  - intro H. apply fromBuffer_inv in H as [W ->]. split; auto. apply is_tlv_elem. eauto.
  - intros [(H0 & H1 & a & b & Ha & Hb & Hw) ->]. apply fromBuffer_wf.
    apply elem_wf_is_tlv. repeat split; auto. exists a, b. repeat split; auto.
    unfold e_wire in Hw. rewrite app_assoc in Hw. now apply app_inv_tail in Hw.
Qed.

Lemma is_tlv_seq_elems : forall l w, is_tlv_seq l w <->
  exists es, Forall elem_wf es /\ l = map (fun e => (e_type e, e_val e)) es /\ w = concat (map e_wire es).
Proof.
  intros l w. split.
  - induction 1 as [|t v w l ws Ht Hs (es & W & -> & ->)].
    + exists []. auto.
    + apply is_tlv_elem in Ht as (e & We & <- & <- & <-). exists (e :: es). auto.
  - intros (es & W & -> & ->). induction W as [|e es We W IH]; cbn; constructor; auto.
    apply is_tlv_elem. eauto.
Qed.

Lemma parseValue_iff : forall v es, parseValue v = Ok es <->
  Forall (fun e => is_tlv (e_type e) (e_val e) (e_wire e)) es /\ v = concat (map e_wire es).
Proof.
  intros v es. rewrite parseValue_ok_iff.
  assert (H : forall e, elem_wf e <-> is_tlv (e_type e) (e_val e) (e_wire e)).
  { intro e. split.
    - intro W. apply is_tlv_elem. eauto.
    - intro T. assert (F : fromBuffer (e_wire e ++ []) = Some (e, [])) by (apply fromBuffer_iff; auto).
      now apply fromBuffer_inv in F. }
  split; intros [F ->]; split; auto; (eapply Forall_impl; [|exact F]); intros; now apply H.
Qed.

Lemma is_tlv_seq_unique : forall l l' w, is_tlv_seq l w -> is_tlv_seq l' w -> l = l'.
Proof.
  intros l l' w H H'.
  apply is_tlv_seq_elems in H as (es & W & -> & ->).
  apply is_tlv_seq_elems in H' as (es' & W' & -> & E).
  now rewrite (concat_wire_inj es es' W W' E).
Qed.

Lemma tlv_enc_is : forall t v, 0 < t -> t < two32 -> nlen v < two64 -> is_tlv t v (tlv_enc t v).
Proof.
  intros t v H0 H1 H2. apply is_tlv_elem. exists (mkBlock t v).
  rewrite mkBlock_wire. auto using mkBlock_wf.
Qed.

(* ---- induction on blocks ---- *)
Section BlockInd.
Variable P : block -> Prop.
Hypothesis H : forall t u s es, Forall P es -> P (Blk t u s es).
Fixpoint block_ind' (b : block) : P b :=
  match b with
  | Blk t u s es => H t u s es
      ((fix go (l : list block) : Forall P l :=
          match l with [] => Forall_nil P | x :: l' => Forall_cons x (block_ind' x) (go l') end) es)
  end.
End BlockInd.

(* m_size is exact for blocks with a value *)
Inductive bk_sized : block -> Prop :=
| bs_no : forall t s es, Forall bk_sized es -> bk_sized (Blk t NoBuf s es)
| bs_val : forall t v s es, s = nlen (tlv_enc t v) -> Forall bk_sized es ->
    bk_sized (Blk t (ValBuf v) s es)
| bs_wire : forall t h v s es, nlen (tlv_enc t v) <= s -> Forall bk_sized es ->
    bk_sized (Blk t (WireBuf h v) s es).

Lemma tlv_enc_len : forall t v,
  nlen (tlv_enc t v) = sizeOfVarNumber t + sizeOfVarNumber (nlen v) + nlen v.
Proof. intros. unfold tlv_enc. rewrite !nlen_app, !encVarNumber_len. lia. Qed.

Lemma sizeOfVarNumber_mono : forall a b, a <= b -> sizeOfVarNumber a <= sizeOfVarNumber b.
Proof.
  intros a b H. unfold sizeOfVarNumber.
  destruct (a <? 253) eqn:A1; destruct (b <? 253) eqn:B1; try lia;
  destruct (a <=? 65535) eqn:A2; destruct (b <=? 65535) eqn:B2; try lia;
  destruct (a <=? 4294967295) eqn:A3; destruct (b <=? 4294967295) eqn:B3; lia.
Qed.

Definition enc_list := fix go (l : list block) : bytes * list block :=
  match l with
  | [] => ([], [])
  | x :: l' => let '(w, x') := bk_encodeBuf x in let '(ws, l'') := go l' in (w ++ ws, x' :: l'')
  end.
Definition est_list := fix sum (l : list block) : N :=
  match l with [] => 0 | x :: l' => bk_estimate x + sum l' end.

Lemma bk_encodeBuf_eq : forall t u s es, bk_encodeBuf (Blk t u s es) =
  let '(v, es') := match u with NoBuf => enc_list es | ValBuf v => (v, es) | WireBuf _ v => (v, es) end in
  let h := encVarNumber t ++ encVarNumber (nlen v) in
  (h ++ v, Blk t (WireBuf h v) (nlen (h ++ v)) es').
Proof. reflexivity. Qed.

Lemma bk_estimate_eq : forall t s es, bk_estimate (Blk t NoBuf s es) =
  let len := est_list es in let len := len + sizeOfVarNumber len in len + sizeOfVarNumber t.
Proof. reflexivity. Qed.

Lemma bk_encodeBuf_octets : forall b, fst (bk_encodeBuf b) = bk_octets b.
Proof.
  induction b as [t u s es IH] using block_ind'. rewrite bk_encodeBuf_eq.
  destruct u as [|v|h v]; cbn [bk_octets].
  - assert (E : fst (enc_list es) = concat (map bk_octets es)).
    { induction IH as [|x l Hx Hl IHl]; [reflexivity|]. cbn [enc_list map concat].
      destruct (bk_encodeBuf x) as [w x']. fold enc_list. destruct (enc_list l) as [ws l'']. cbn in *.
      now rewrite Hx, IHl. }
    destruct (enc_list es) as [v es']. cbn [fst] in *. rewrite E. unfold tlv_enc. now rewrite app_assoc.
  - cbn [fst]. unfold tlv_enc. now rewrite app_assoc.
  - cbn [fst]. unfold tlv_enc. now rewrite app_assoc.
Qed.

Lemma bk_encodeBuf_wire : forall b, exists h v es,
  snd (bk_encodeBuf b) = Blk (bk_type b) (WireBuf h v) (nlen (h ++ v)) es /\ h ++ v = bk_octets b /\
  bk_octets (snd (bk_encodeBuf b)) = bk_octets b /\
  h = encVarNumber (bk_type b) ++ encVarNumber (nlen v).
Proof.
  intro b. pose proof (bk_encodeBuf_octets b) as E. destruct b as [t u s es].
  rewrite bk_encodeBuf_eq in *.
  destruct (match u with NoBuf => enc_list es | ValBuf v => (v, es) | WireBuf _ v => (v, es) end) as [v es'].
  cbv zeta in *. cbn [fst snd bk_octets bk_type] in *. do 3 eexists. split; [reflexivity|]. split; [exact E|].
  split; [|reflexivity]. rewrite <- E. unfold tlv_enc. now rewrite app_assoc.
Qed.

Lemma bk_estimate_ge : forall b, bk_sized b -> nlen (bk_octets b) <= bk_estimate b.
Proof.
  induction b as [t u s es IH] using block_ind'. intro S.
  inversion S as [? ? ? F|? ? ? ? Hs F|? ? ? ? ? Hs F]; subst.
  - rewrite bk_estimate_eq. cbv zeta. cbn [bk_octets].
    assert (E : nlen (concat (map bk_octets es)) <= est_list es).
    { clear S. induction F as [|x l Hx Hl IHl]; [cbn; lia|]. inversion IH; subst.
      cbn [map concat est_list]. fold est_list. rewrite nlen_app. specialize (IHl H2). specialize (H1 Hx). lia. }
    rewrite tlv_enc_len. pose proof (sizeOfVarNumber_mono _ _ E). lia.
  - cbn [bk_octets bk_estimate]. lia.
  - cbn [bk_octets bk_estimate]. lia.
Qed.

(* the API keeps sizes exact *)
Lemma sized_ofType : forall t, bk_sized (bk_ofType t).
Proof. intro. unfold bk_ofType. constructor. constructor. Qed.
Lemma sized_ofValue : forall t v, bk_sized (bk_ofValue t v).
Proof. intros. unfold bk_ofValue. constructor; [|constructor]. now rewrite tlv_enc_len. Qed.
Lemma sized_ofElem : forall e, elem_wf e -> bk_sized (bk_ofElem e).
Proof.
  intros e W. unfold bk_ofElem. constructor; [|constructor].
  apply elem_wf_is_tlv in W as (_ & _ & a & b & Ha & Hb & Hh).
  apply is_varnum_shortest in Ha, Hb. unfold e_wire. rewrite Hh, tlv_enc_len, !nlen_app. lia.
Qed.
Lemma sized_elems : forall b, bk_sized b -> Forall bk_sized (bk_elems b).
Proof. intros b H. inversion H; subst; auto. Qed.
Lemma sized_reset_set : forall b es, Forall bk_sized es -> bk_sized (set_elems (bk_resetWire b) es).
Proof. intros. unfold set_elems, bk_resetWire. cbn. now constructor. Qed.
Lemma sized_set_elems : forall b es, bk_sized b -> Forall bk_sized es -> bk_sized (set_elems b es).
Proof. intros b es H F. destruct b as [t u s es0]. inversion H; subst; cbn; constructor; auto. Qed.
Lemma sized_default : bk_sized bk_default.
Proof. constructor. constructor. Qed.

Lemma parse_loop_forall : forall f v, Forall elem_wf (fst (parse_loop f v)).
Proof.
  induction f as [|f IH]; intro v; [constructor|].
  rewrite parse_loop_S. destruct v as [|b v]; [constructor|].
  destruct (fromBuffer (b :: v)) as [[e r]|] eqn:E; [|constructor].
  specialize (IH r). destruct (parse_loop f r) as [es st]. cbn [fst] in *.
  apply fromBuffer_inv in E as [W _]. now constructor.
Qed.

Lemma sized_parse : forall b, bk_sized b -> bk_sized (fst (bk_parse b)).
Proof.
  intros b HS. unfold bk_parse.
  destruct (negb _ || _); [exact HS|].
  pose proof (parse_loop_forall (S (length (bk_value b))) (bk_value b)) as F.
  destruct (parse_loop (S (length (bk_value b))) (bk_value b)) as [es []]; cbn [fst] in *; auto;
    apply sized_set_elems; auto.
  - rewrite Forall_map. eapply Forall_impl; [|exact F]. intros; now apply sized_ofElem.
  - rewrite Forall_map. eapply Forall_impl; [|exact F]. intros; now apply sized_ofElem.
Qed.

Lemma sized_encodeBuf : forall b, bk_sized b -> bk_sized (snd (bk_encodeBuf b)).
Proof.
  induction b as [t u s es IH] using block_ind'. intro S.
  rewrite bk_encodeBuf_eq.
  assert (A : Forall bk_sized es) by (inversion S; auto).
  destruct u as [|v|h v].
  - assert (B : Forall bk_sized (snd (enc_list es))).
    { clear S. induction A as [|x l Hx Hl IHl]; [constructor|]. inversion IH; subst.
      cbn [enc_list]. fold enc_list. specialize (H1 Hx). specialize (IHl H2).
      destruct (bk_encodeBuf x) as [w x']. destruct (enc_list l) as [ws l'']. cbn [snd] in *. now constructor. }
    destruct (enc_list es) as [v es']. cbn [snd] in *. constructor; auto.
    unfold tlv_enc. rewrite app_assoc. lia.
  - cbn [snd]. constructor; auto. unfold tlv_enc. rewrite app_assoc. lia.
  - cbn [snd]. constructor; auto. unfold tlv_enc. rewrite app_assoc. lia.
Qed.

Lemma Forall_firstn_ : forall A (P : A -> Prop) n l, Forall P l -> Forall P (firstn n l).
Proof. intros A P n l H. revert n. induction H; intros [|n]; cbn; auto. Qed.
Lemma Forall_skipn_ : forall A (P : A -> Prop) n l, Forall P l -> Forall P (skipn n l).
Proof. intros A P n l H. revert n. induction H; intros [|n]; cbn; auto. Qed.
Lemma Forall_filter_ : forall A (P : A -> Prop) f l, Forall P l -> Forall P (filter f l).
Proof. intros A P f l H. induction H as [|x l Hx H IH]; cbn; auto. destruct (f x); auto. Qed.

Lemma bk_encode_cases : forall b b', bk_encode b = Ok b' -> b' = b \/ b' = snd (bk_encodeBuf b).
Proof.
  intros b b' H. unfold bk_encode in H. destruct (bk_hasWire b); [left; congruence|].
  destruct (bk_encodeBuf b) as [w x]. destruct (_ <? _); [discriminate|]. right. cbn. congruence.
Qed.

Lemma built_sized : forall b, built b -> bk_sized b.
Proof.
  intros b H. induction H.
  - apply sized_default.
  - apply sized_ofType.
  - apply sized_ofValue.
  - unfold bk_ofBlock in H0. destruct (bk_buf b); try discriminate. injection H0 as <-. apply sized_ofValue.
  - rewrite blockFromSpan_eq in H. destruct (fromBuffer w) as [[e' r]|] eqn:E; [|discriminate].
    injection H as ->. apply fromBuffer_inv in E as [W _]. now apply sized_ofElem.
  - now apply sized_parse.
  - apply bk_encode_cases in H0 as [->| ->]; auto. now apply sized_encodeBuf.
  - apply sized_reset_set. apply Forall_app. split; [now apply sized_elems|]. now constructor.
  - apply sized_reset_set. apply Forall_app. split; [now apply Forall_firstn_, sized_elems|].
    constructor; auto. now apply Forall_skipn_, sized_elems.
  - apply sized_reset_set. now apply Forall_filter_, sized_elems.
  - apply sized_reset_set. apply Forall_app.
    split; [now apply Forall_firstn_, sized_elems|now apply Forall_skipn_, sized_elems].
  - apply sized_elems in IHbuilt. rewrite Forall_forall in IHbuilt. auto.
Qed.

Lemma bk_encode_sized : forall b, bk_sized b -> bk_hasWire b = false ->
  exists b', bk_encode b = Ok b' /\ bk_wire b' = Ok (bk_octets b) /\ bk_type b' = bk_type b.
Proof.
  intros b S HW. unfold bk_encode. rewrite HW.
  pose proof (bk_encodeBuf_octets b) as E. pose proof (bk_estimate_ge b S) as L.
  destruct (bk_encodeBuf_wire b) as (h & v & es & E1 & E2 & _).
  destruct (bk_encodeBuf b) as [w b']. cbn [fst snd] in *. subst w.
  destruct (bk_estimate b <? nlen (bk_octets b)) eqn:C; [lia|].
  exists b'. subst b'. repeat split; auto. unfold bk_wire. cbn. now rewrite E2.
Qed.

(* ---- trees ---- *)
Section TreeInd.
Variable P : tree -> Prop.
Hypothesis HL : forall t v, P (Leaf t v).
Hypothesis HN : forall t ts, Forall P ts -> P (Node t ts).
Fixpoint tree_ind' (x : tree) : P x :=
  match x with
  | Leaf t v => HL t v
  | Node t ts => HN t ts
      ((fix go (l : list tree) : Forall P l :=
          match l with [] => Forall_nil P | y :: l' => Forall_cons y (tree_ind' y) (go l') end) ts)
  end.
End TreeInd.

Lemma fold_push : forall l t s es,
  fold_left (fun b y => bk_push_back y b) l (Blk t NoBuf s es) = Blk t NoBuf s (es ++ l).
Proof.
  induction l as [|y l IH]; intros t s es; cbn [fold_left]; [now rewrite app_nil_r|].
  unfold bk_push_back at 2, bk_resetWire, set_elems. cbn [bk_type bk_buf bk_msize bk_elems].
  rewrite IH. now rewrite <- app_assoc.
Qed.

Lemma block_of_node : forall t ts,
  block_of_tree (Node t ts) = Blk t NoBuf (sizeOfVarNumber t + sizeOfVarNumber 0) (map block_of_tree ts).
Proof. intros. cbn [block_of_tree]. unfold bk_ofType. now rewrite fold_push. Qed.

Lemma block_of_tree_built : forall x, built (block_of_tree x).
Proof.
  induction x as [t v|t ts IH] using tree_ind'; [constructor|].
  cbn [block_of_tree]. assert (B : built (bk_ofType t)) by constructor. revert B.
  generalize (bk_ofType t). induction IH as [|y l Hy Hl IHl]; intros b B; cbn [map fold_left]; auto.
  apply IHl. now apply bu_push.
Qed.

Lemma tree_types_node : forall t ts, tree_types_ok (Node t ts) <->
  0 < t /\ t < 2 ^ 32 /\ Forall tree_types_ok ts.
Proof.
  intros t ts. cbn [tree_types_ok].
  assert (H : forall l, (fix go l := match l with [] => True | y :: l' => tree_types_ok y /\ go l' end) l
                        <-> Forall tree_types_ok l).
  { induction l as [|y l IH]; [split; auto|]. rewrite IH. split; [intros [? ?]; auto|].
    intro F; inversion F; auto. }
  now rewrite H.
Qed.

Lemma nlen_concat_In : forall (x : bytes) l, In x l -> nlen x <= nlen (concat l).
Proof.
  intros x l. induction l as [|y l IH]; [intros []|]. cbn [concat]. rewrite nlen_app.
  intros [->|H]; [lia|]. specialize (IH H). lia.
Qed.

Lemma tree_octets_wire : forall x, tree_types_ok x -> nlen (bk_octets (block_of_tree x)) < 2 ^ 64 ->
  tree_wire x (bk_octets (block_of_tree x)).
Proof.
  change (2 ^ 64) with two64.
  induction x as [t v|t ts IH] using tree_ind'; intros T L.
  - cbn in *. constructor. apply tlv_enc_is; try apply T. rewrite tlv_enc_len in L. lia.
  - rewrite block_of_node in *. apply tree_types_node in T as (T0 & T1 & T). cbn [bk_octets] in *.
    rewrite map_map in *. rewrite tlv_enc_len in L.
    econstructor; [|reflexivity|apply tlv_enc_is; auto; lia].
    assert (L' : Forall (fun x => nlen (bk_octets (block_of_tree x)) < two64) ts).
    { apply Forall_forall. intros x Hx.
      assert (nlen (bk_octets (block_of_tree x)) <= nlen (concat (map (fun x => bk_octets (block_of_tree x)) ts)));
        [|lia]. apply nlen_concat_In, in_map_iff. eauto. }
    clear L. induction ts as [|x ts IHt]; cbn [map]; constructor; inversion IH; inversion T; inversion L'; subst; auto.
Qed.

Scheme tree_wire_mind := Induction for tree_wire Sort Prop
  with trees_wire_mind := Induction for trees_wire Sort Prop.

Lemma trees_wire_In : forall ts ws, trees_wire ts ws -> forall w, In w ws ->
  exists t v, is_tlv t v w.
Proof.
  intros ts ws H. induction H as [|x w ts ws Hx H IH]; [intros ? []|].
  intros w' [<-|Hw]; auto. inversion Hx; eauto.
Qed.

Lemma tree_wire_reads : forall x w, tree_wire x w ->
  exists e, blockFromSpan w = Ok e /\ elem_wf e /\ e_wire e = w /\ reads (bk_ofElem e) x.
Proof.
  apply (tree_wire_mind
    (fun x w _ => exists e, blockFromSpan w = Ok e /\ elem_wf e /\ e_wire e = w /\ reads (bk_ofElem e) x)
    (fun ts ws _ => exists es, Forall elem_wf es /\ map e_wire es = ws /\ reads_all (map bk_ofElem es) ts)).
  - intros t v w T. apply is_tlv_elem in T as (e & W & <- & <- & <-). exists e.
    assert (F : fromBuffer (e_wire e ++ []) = Some (e, [])) by now apply fromBuffer_wf.
    rewrite app_nil_r in F. rewrite blockFromSpan_eq, F. splits; auto.
    apply (rd_leaf (bk_ofElem e)).
  - intros t ts vs v w Hts (es & Wes & Hvs & Hrd) -> T.
    apply is_tlv_elem in T as (e & W & Ht & Hv & Hw). exists e.
    assert (F : fromBuffer (e_wire e ++ []) = Some (e, [])) by now apply fromBuffer_wf.
    rewrite app_nil_r, Hw in F. rewrite blockFromSpan_eq, F. splits; auto.
    subst t. change (e_type e) with (bk_type (bk_ofElem e)).
    assert (PV : parseValue (e_val e) = Ok es).
    { rewrite Hv, <- Hvs. now apply parseValue_concat. }
    unfold parseValue in PV.
    destruct (nlen (e_val e) =? 0) eqn:E0.
    + assert (E : e_val e = []).
      { apply nlen_0. lia. }
      rewrite E in PV. cbn in PV. injection PV as <-. inversion Hrd; subst.
      eapply (rd_node _ (bk_ofElem e)); [|constructor]. unfold bk_parse, bk_ofElem. cbn [bk_elems negb orb].
      unfold bk_value_size, bk_value. cbn [bk_buf]. rewrite E0. reflexivity.
    + eapply (rd_node _ (set_elems (bk_ofElem e) (map bk_ofElem es))); [|exact Hrd]. unfold bk_parse, bk_ofElem. cbn [bk_elems negb orb].
      unfold bk_value_size, bk_value. cbn [bk_buf]. rewrite E0.
      destruct (parse_loop _ _) as [es' []]; try discriminate. now injection PV as ->.
  - exists []. repeat split; constructor.
  - intros x w ts ws Hx (e & _ & We & Hw & Hr) Hts (es & Wes & Hvs & Hrs).
    exists (e :: es). repeat split; [constructor; auto| |constructor; auto]. cbn. now rewrite Hw, Hvs.
Qed.

(* ---- statements used in T_Tlv ---- *)
Lemma encVarNumber_shortest : forall n, n < 2 ^ 64 -> shortest_varnum n (encVarNumber n).
Proof.
  intros n H. split; [now apply encVarNumber_is|].
  intros d' Hd. rewrite encVarNumber_len. now apply is_varnum_shortest.
Qed.

Lemma encNNI_shortest : forall n, n < 2 ^ 64 -> shortest_nni n (encNNI n).
Proof.
  intros n H. split.
  - split; [|now rewrite big_endian_be_val, be_val_encNNI].
    rewrite encNNI_len. apply sizeOfNNI_cases.
  - intros d' [Hl ->]. rewrite encNNI_len, big_endian_be_val.
    pose proof (be_val_lt d') as L. unfold sizeOfNonNegativeInteger.
    destruct Hl as [E|[E|[E|E]]]; rewrite E in *;
      repeat match goal with |- context [?a <=? ?b] => destruct (a <=? b) eqn:?; try lia end.
Qed.

Lemma readVarNumber_total : forall inp,
  readVarNumberX inp = Err ETlv \/
  exists n d rest, readVarNumberX inp = Ok (n, rest) /\ inp = d ++ rest /\ d <> [] /\ n < 2 ^ 64 /\ is_varnum n d.
Proof.
  intro inp. unfold readVarNumberX. destruct (readVarNumber inp) as [[n r]|] eqn:E; [right|now left].
  apply readVarNumber_iff in E as (d & Hd & ->). exists n, d, r. splits; auto.
  - now apply is_varnum_nonempty in Hd.
  - now apply is_varnum_lt in Hd.
Qed.

Lemma readType_total : forall inp,
  readTypeX inp = Err ETlv \/
  exists n d rest, readTypeX inp = Ok (n, rest) /\ inp = d ++ rest /\ d <> [] /\ 0 < n < 2 ^ 32 /\ is_varnum n d.
Proof.
  intro inp. rewrite readType_X. destruct (readType inp) as [[n r]|] eqn:E; [right|now left].
  apply readType_iff in E as (H0 & H1 & d & Hd & ->). exists n, d, r. splits; auto.
  now apply is_varnum_nonempty in Hd.
Qed.

Lemma readers_nonthrowing : forall inp,
  (readVarNumberX inp = match readVarNumber inp with Some r => Ok r | None => Err ETlv end) /\
  (readTypeX inp = match readType inp with Some r => Ok r | None => Err ETlv end).
Proof. intro inp. split; [reflexivity|]. rewrite readType_X. reflexivity. Qed.

Lemma varnum_truncated : forall n p s, is_varnum n (p ++ s) -> s <> [] ->
  readVarNumberX p = Err ETlv /\ readTypeX p = Err ETlv.
Proof.
  intros n p s H Hs.
  assert (R : readVarNumber p = None).
  { eapply readVarNumber_strict_prefix; [|reflexivity|exact Hs].
    apply readVarNumber_iff. exists (p ++ s). split; [exact H|now rewrite app_nil_r]. }
  split; [unfold readVarNumberX; now rewrite R|]. rewrite readType_X. unfold readType. now rewrite R.
Qed.

Lemma readNNI_iff : forall len inp n rest,
  readNonNegativeInteger len inp = Ok (n, rest) <->
  exists d, is_nni n d /\ nlen d = len /\ inp = d ++ rest.
Proof.
  intros len inp n rest. rewrite readNNI_ok_iff. unfold is_nni. split.
  - intros (Hl & d & -> & Hd & ->). exists d. rewrite Hd, big_endian_be_val. auto.
  - intros (d & (Hl & ->) & <- & ->). split; auto. exists d. rewrite big_endian_be_val. auto.
Qed.

Lemma readNNI_err : forall len inp e, readNonNegativeInteger len inp = Err e -> e = ETlv.
Proof.
  intros len inp e. unfold readNonNegativeInteger. destruct (negb _); [congruence|].
  destruct (readNumber len inp); cbn; congruence.
Qed.

Lemma tlv_truncated : forall t v p s, is_tlv t v (p ++ s) -> s <> [] ->
  fromBuffer p = None /\ blockFromSpan p = Err ETlv.
Proof.
  intros t v p s H Hs. apply is_tlv_elem in H as (e & W & _ & _ & Hw).
  pose proof (fromBuffer_strict_prefix e p s W Hw Hs) as F. split; auto.
  now rewrite blockFromSpan_eq, F.
Qed.

Lemma fromBuffer_tlv_iff : forall inp rest t v,
  (exists w, is_tlv t v w /\ inp = w ++ rest) <->
  (exists e, fromBuffer inp = Some (e, rest) /\ e_type e = t /\ e_val e = v).
Proof.
  intros inp rest t v. split.
  - intros (w & H & ->). apply is_tlv_elem in H as (e & W & <- & <- & <-).
    exists e. splits; auto. now apply fromBuffer_wf.
  - intros (e & F & <- & <-). apply fromBuffer_iff in F as [T ->]. eauto.
Qed.


Lemma parse_loop_app : forall es tail fuel, Forall elem_wf es ->
  (length (concat (map e_wire es) ++ tail) < fuel)%nat ->
  exists fuel', (length tail < fuel')%nat /\
    parse_loop fuel (concat (map e_wire es) ++ tail) =
    (es ++ fst (parse_loop fuel' tail), snd (parse_loop fuel' tail)).
Proof.
  induction es as [|e es IH]; intros tail fuel W L.
  - cbn [map concat app] in *. exists fuel. split; auto. now destruct (parse_loop fuel tail).
  - inversion W as [|? ? We Wes]; subst. cbn [map concat] in *. rewrite <- app_assoc in *.
    destruct fuel as [|fuel]; [lia|].
    pose proof (elem_wf_wire_len e We) as Le. rewrite app_length in L.
    assert (length (e_wire e) > 0)%nat by (unfold nlen in Le; lia).
    destruct (IH tail fuel Wes ltac:(lia)) as (fuel' & Lf & E).
    exists fuel'. split; auto. rewrite parse_loop_S.
    destruct (e_wire e ++ concat (map e_wire es) ++ tail) as [|x l] eqn:EE.
    { apply app_eq_nil in EE as [EE _]. rewrite EE in *. cbn in *. lia. }
    rewrite <- EE, fromBuffer_wf, E by auto. reflexivity.
Qed.

Lemma parse_loop_overlong : forall v fuel, overlong v -> (length v < fuel)%nat ->
  parse_loop fuel v = ([], PTooLong).
Proof.
  intros v fuel (t & a & b & len & r & Ht & Ha & Hb & Hr & ->) L.
  destruct fuel as [|fuel]; [lia|]. cbn [parse_loop].
  assert (RT : readType (a ++ b ++ r) = Some (t, b ++ r)).
  { apply readType_iff. splits; try lia. eauto. }
  pose proof (is_varnum_nonempty _ _ Ha) as Na.
  destruct (a ++ b ++ r) as [|x l] eqn:E; [now apply app_eq_nil in E as [? _]|]. rewrite <- E in *.
  rewrite RT, (varnum_read_ext _ _ r Hb).
  destruct (nlen r <? len) eqn:C; [reflexivity|lia].
Qed.

Lemma parse_loop_bad_header : forall v fuel, bad_header v -> (length v < fuel)%nat ->
  parse_loop fuel v = ([], PBadHeader).
Proof.
  intros v fuel (N & H) L. destruct fuel as [|fuel]; [lia|]. cbn [parse_loop].
  destruct v as [|x l] eqn:E; [easy|]. rewrite <- E in *.
  destruct (readType v) as [[t r]|] eqn:RT; [|reflexivity].
  destruct (readVarNumber r) as [[len r2]|] eqn:RV; [|reflexivity]. exfalso.
  apply readType_iff in RT as (T0 & T1 & a & Ha & Hv).
  apply readVarNumber_iff in RV as (b & Hb & Hr). subst r. eapply H; eauto.
Qed.

Lemma parse_overlong_forever : forall t l ws tail, is_tlv_seq l ws -> overlong tail ->
  forall n, parse_n (S n) (bk_ofValue t (ws ++ tail)) = (bk_ofValue t (ws ++ tail), Some ETlv).
Proof.
  intros t l ws tail H O.
  assert (One : bk_parse (bk_ofValue t (ws ++ tail)) = (bk_ofValue t (ws ++ tail), Some ETlv)).
  { apply is_tlv_seq_elems in H as (es & W & _ & ->).
    unfold bk_parse, bk_ofValue. cbn [bk_elems negb orb]. unfold bk_value_size, bk_value. cbn [bk_buf].
    destruct (nlen (concat (map e_wire es) ++ tail) =? 0) eqn:E0.
    { exfalso. apply N.eqb_eq in E0. apply nlen_0 in E0. apply app_eq_nil in E0 as [_ E0].
      destruct O as (t' & a & b & len & r & _ & Ha & _ & _ & ->).
      apply is_varnum_nonempty in Ha. apply app_eq_nil in E0 as [E0 _]. auto. }
    destruct (parse_loop_app es tail (S (length (concat (map e_wire es) ++ tail))) W ltac:(lia))
      as (f & Lf & E).
    rewrite E, (parse_loop_overlong tail f O Lf). cbn. reflexivity. }
  induction n as [|n IH]; cbn [parse_n fst].
  - exact One.
  - cbn [parse_n] in IH. rewrite IH. exact One.
Qed.

Lemma parse_bad_header_twice : forall t l ws tail, is_tlv_seq l ws -> l <> [] -> bad_header tail ->
  exists b', parse_n 1 (bk_ofValue t (ws ++ tail)) = (b', Some ETlv) /\
    parse_n 2 (bk_ofValue t (ws ++ tail)) = (b', None) /\
    map (fun x => (bk_type x, bk_value x)) (bk_elems b') = l.
Proof.
  intros t l ws tail H NE O.
  apply is_tlv_seq_elems in H as (es & W & -> & ->).
  assert (One : bk_parse (bk_ofValue t (concat (map e_wire es) ++ tail)) =
                (set_elems (bk_ofValue t (concat (map e_wire es) ++ tail)) (map bk_ofElem es), Some ETlv)).
  { unfold bk_parse, bk_ofValue. cbn [bk_elems negb orb]. unfold bk_value_size, bk_value. cbn [bk_buf].
    destruct (nlen (concat (map e_wire es) ++ tail) =? 0) eqn:E0.
    { exfalso. apply N.eqb_eq in E0. apply nlen_0 in E0. apply app_eq_nil in E0 as [_ E0]. now destruct O. }
    destruct (parse_loop_app es tail (S (length (concat (map e_wire es) ++ tail))) W ltac:(lia))
      as (f & Lf & E).
    rewrite E, (parse_loop_bad_header tail f O Lf). cbn [fst snd]. now rewrite app_nil_r. }
  eexists. splits.
  - cbn [parse_n fst]. exact One.
  - cbn [parse_n fst]. rewrite One. cbn [fst]. unfold bk_parse at 1. cbn [set_elems bk_elems].
    destruct es as [|e es]; [easy|]. reflexivity.
  - cbn [set_elems bk_elems]. now rewrite map_map.
Qed.

Lemma block_of_tree_no_wire : forall x, bk_hasWire (block_of_tree x) = false.
Proof. intros [t v|t ts]; [reflexivity|]. now rewrite block_of_node. Qed.

Lemma tree_wire_reads' : forall x w, tree_wire x w ->
  exists e, blockFromSpan w = Ok e /\ e_wire e = w /\ reads (bk_ofElem e) x.
Proof. intros x w H. destruct (tree_wire_reads x w H) as (e & A & _ & B & C). eauto. Qed.

Lemma sizeOfVarNumber_cases : forall n,
  sizeOfVarNumber n = 1 \/ sizeOfVarNumber n = 3 \/ sizeOfVarNumber n = 5 \/ sizeOfVarNumber n = 9.
Proof.
  intro n. unfold sizeOfVarNumber. destruct (n <? 253); auto. destruct (n <=? 65535); auto.
  destruct (n <=? 4294967295); auto.
Qed.
