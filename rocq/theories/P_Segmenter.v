(* Proofs about M_Segmenter *)
From Coq Require Import Lia ZifyBool ZifyNat ZifyN.
From Verif Require Import Base BaseLemmas M_Tlv P_Tlv S_Tlv P_Block M_Str M_Name S_Name P_Name P_NameUri M_Packet S_Packet P_Packet P_Data P_DataT
  M_Segmenter S_Segmenter.

Lemma fromKind_valid : forall e k n c, fromKind e k n = Ok c -> valid_key (ckey c) /\ ctype_ok c.
Proof.
  intros e k n c H. assert (V : valid_key (ckey c)).
  { unfold fromKind, fromNumber, fromNumberWithMarker, comp_ofBlock in H.
    destruct e; apply ensureValid_iff in H as [V ->]; exact V. }
  split; auto. destruct V as (V1 & V2 & _). unfold ctype_ok, ckey, two32 in *. cbn in *. lia.
Qed.
Lemma da_decode_err : forall e d d', snd (da_decode e d) = snd (da_decode e d').
Proof.
  intros e d d'. unfold da_decode. destruct (negb (e_type e =? tData)); auto.
  destruct (parseValue (e_val e)) as [[|n es]|]; auto. destruct (negb (e_type n =? tName)); auto.
  destruct (nm_decode n); auto.
Qed.
Lemma da_decode_res : forall e d d', da_decode e d = (d', None) -> forall d0, da_decode e d0 = (d', None).
Proof.
  intros e d d' H d0. revert H. unfold da_decode. destruct (negb (e_type e =? tData)); [discriminate|].
  destruct (parseValue (e_val e)) as [[|n es]|]; try discriminate. destruct (negb (e_type n =? tName)); [discriminate|].
  destruct (nm_decode n); [|discriminate].
  destruct (da_loop es 1 _) as [d1 [x|]]; auto.
Qed.

Lemma nth_error_ext' : forall A (a b : list A), (forall i, nth_error a i = nth_error b i) -> a = b.
Proof.
  induction a as [|x a IH]; intros [|y b] H; auto; try (specialize (H O); discriminate).
  pose proof (H O) as H0. injection H0 as ->. f_equal. apply IH. intro i. exact (H (S i)).
Qed.

Section Seg.
Variable conv : convention.
Variable signer : bytes -> bytes.
Variable si : siginfo.

(* the packet before signing *)
Definition raw (n : name) (f : Z) (ct : N) (final : option comp) (c : blk) (ci : comp) : data :=
  mkData (nm_append ci n) (mkMI ct (Z.to_N f) final [] None) c si_empty blk_invalid None nm_empty.

Lemma seg_packet_eq : forall n i f ct, i < two64 -> (0 <= f <= MAX_MS)%Z -> exists ci, fromKind conv KSegment i = Ok ci /\
  seg_packet conv n i f ct = Ok (raw n f ct None blk_invalid ci).
Proof.
  intros n i f ct Hi Hf. destruct (fromKind_ok conv KSegment i Hi) as [ci Hc]. exists ci. split; auto.
  unfold seg_packet. rewrite Hc. cbn [bind]. unfold da_setName.
  destruct (nm_equals (nm_append ci n) (d_name da_empty)) eqn:E.
  { exfalso. apply nm_equals_iff in E. unfold nkey in E. cbn in E. rewrite map_app in E. destruct (map ckey (n_comps n)); discriminate. }
  set (base := da_set (nm_append ci n) mi_empty blk_invalid si_empty blk_invalid).
  change (da_set (nm_append ci n) (d_meta da_empty) (d_content da_empty) (d_sinfo da_empty) (d_sval da_empty)) with base.
  assert (X : da_setContentType ct base = da_set (nm_append ci n) (mkMI ct 0 None [] None) blk_invalid si_empty blk_invalid).
  { unfold da_setContentType, base. cbn. destruct (ct =? 0) eqn:E0; [|reflexivity]. apply N.eqb_eq in E0. now subst. }
  rewrite X. unfold da_setFreshnessPeriod. cbn [d_meta da_set]. unfold mi_getFreshnessPeriod. cbn [mi_fresh].
  destruct (f =? _)%Z eqn:F.
  - assert (f = 0)%Z. { unfold MAX_MS in *. cbn in F. lia. } subst f. reflexivity.
  - unfold mi_setFreshnessPeriod. destruct (f <? 0)%Z eqn:F0; [lia|]. reflexivity.
Qed.

Lemma raw_ok : forall n f ct final c ci i, Forall ctype_ok (n_comps n) -> (0 <= f <= MAX_MS)%Z -> ct < two32 ->
  fromKind conv KSegment i = Ok ci -> (forall fc, final = Some fc -> valid_key (ckey fc)) -> content_ok c -> da_ok (raw n f ct final c ci).
Proof.
  intros n f ct final c ci i Hn Hf Hc Hi Hl Hk. unfold da_ok, raw. cbn. splits; auto.
  - apply Forall_app. split; auto. constructor; auto. now apply fromKind_valid in Hi.
  - unfold mi_ok. cbn. splits; auto. unfold MAX_MS in *. lia.
  - unfold si_ok. cbn. splits; auto; discriminate.
  - left. reflexivity.
Qed.

(* signing: the packet, or too large *)
Lemma seg_sign_total : forall d, da_ok d -> si_ok si -> si_type si <> None ->
  (forall k t, si_key si = Some k -> kl_loc k <> KlOther t) ->
  (exists d' e, da_sign signer si d = (d', Ok e) /\ seg_sign signer si d = Ok d') \/ seg_sign signer si d = Err ELength.
Proof.
  intros d O Os T Kl. unfold seg_sign, da_sign.
  assert (exists u, da_unsigned (da_setSignatureInfo si d) = Ok u) as [u U].
  { unfold da_unsigned, si_octets, si_value. cbn [d_sinfo da_setSignatureInfo da_set].
    destruct (si_type si); [|congruence].
    destruct (si_key si) as [k|] eqn:Ek; [|cbn; eauto]. unfold kl_value.
    specialize (fun t => Kl k t eq_refl). destruct (kl_loc k) eqn:El; cbn [bind]; eauto.
    exfalso. eapply Kl; eauto. }
  rewrite U. unfold da_finish. unfold alloc. destruct (MAX_BUFFER <? _) eqn:A; [right; reflexivity|]. left.
  rewrite mkBlock_wire in A. set (v := u ++ tlv_enc tSignatureValue (signer u)) in *.
  assert (Lu : nlen v < two64) by (rewrite tlv_enc_len in A; unfold MAX_BUFFER, two64 in *; lia).
  assert (Ls : nlen (signer u) < two64) by (unfold v in Lu; rewrite nlen_app, tlv_enc_len in Lu; lia).
  set (dv := mkData (d_name d) (d_meta d) (d_content d) si (mkComp 23 None (signer u)) None nm_empty).
  assert (Ov : da_ok dv).
  { destruct O as (O1 & O2 & O3 & O4 & O5). unfold da_ok, dv. cbn. splits; auto. right. split; auto. apply blk_ok_bare; auto; reflexivity. }
  assert (V : da_value dv = Ok v).
  { assert (Uv : da_unsigned dv = Ok u) by exact U. unfold da_value. rewrite Uv. unfold dv. cbn [d_sinfo d_sval].
    destruct (si_type si); [reflexivity|congruence]. }
  destruct (da_decode_encoded dv v (mkBlock tData v) (da_setSignatureInfo si d) Ov V Lu eq_refl eq_refl eq_refl) as (d2 & D2 & _).
  rewrite D2. eauto.
Qed.
(* signing does not depend on how the content is stored *)
Lemma seg_sign_ext : forall n f ct final ci c c', blk_isValid c = blk_isValid c' -> blk_octets c = blk_octets c' ->
  seg_sign signer si (raw n f ct final c ci) = seg_sign signer si (raw n f ct final c' ci).
Proof.
  intros n f ct final ci c c' V O. unfold seg_sign, da_sign, da_unsigned, da_hasContent, raw, da_setSignatureInfo, da_set.
  cbn [d_name d_meta d_content d_sinfo d_sval]. rewrite V, O. destruct (si_octets SiData si); cbn [bind]; auto.
  unfold da_finish. destruct (alloc _); auto.
  match goal with |- context [da_decode ?e ?d] => match goal with |- _ = ?r => match r with context [da_decode e ?d'] =>
    pose proof (da_decode_err e d d') as E; destruct (da_decode e d) as [d1 o1] eqn:D1; destruct (da_decode e d') as [d2 o2] eqn:D2 end end end.
  cbn in E. subst o2. destruct o1; auto. f_equal. eapply da_decode_res in D1. rewrite D1 in D2. now injection D2.
Qed.

(* ---- the parts of the object ---- *)
Fixpoint chop (fuel : nat) (max : N) (buf : bytes) : list bytes :=
  match fuel with
  | O => []
  | S k => let m := N.min (nlen buf) max in ntake m buf :: match ndrop m buf with [] => [] | rest => chop k max rest end
  end.
Definition mkc (v : bytes) : blk := comp_of_elem (mkBlock tContent v).
Definition mkcb (v : bytes) : blk := mkComp tContent None v.
Fixpoint packets (mk : bytes -> blk) (n : name) (f : Z) (ct : N) (final : option comp) (i : N) (chunks : list bytes) : res (list data) :=
  match chunks with
  | [] => Ok []
  | v :: l =>
      let! ci := fromKind conv KSegment i in
      let! r := packets mk n f ct final (i + 1) l in Ok (raw n f ct final (mk v) ci :: r)
  end.
Lemma packets_ok : forall mk n f ct final chunks i, i + nlen chunks <= two64 -> exists l, packets mk n f ct final i chunks = Ok l /\
  length l = length chunks /\ forall j d, nth_error l j = Some d -> exists v ci, nth_error chunks j = Some v /\
    fromKind conv KSegment (i + N.of_nat j) = Ok ci /\ d = raw n f ct final (mk v) ci.
Proof.
  intros mk n f ct final. induction chunks as [|v l IH]; intros i H; cbn [packets].
  - exists []. splits; auto. intros [|j] d E; discriminate.
  - rewrite nlen_cons in H. destruct (fromKind_ok conv KSegment i) as [ci Hc]; [lia|]. rewrite Hc.
    destruct (IH (i + 1)) as (r & E & L & P); [lia|]. cbn [bind]. rewrite E. cbn [bind]. eexists. splits; auto; [cbn; congruence|].
    intros [|j] d D; cbn in D.
    + injection D as <-. exists v, ci. splits; auto. now rewrite N.add_0_r.
    + destruct (P j d D) as (v' & c' & P1 & P2 & P3). exists v', c'. splits; auto. rewrite <- P2. f_equal. lia.
Qed.

Lemma chop_nil : forall fuel max buf, fuel <> O -> chop fuel max buf <> [].
Proof. intros [|k] max buf H; [congruence|]. cbn. discriminate. Qed.
Lemma chop_spec : forall fuel max buf, (length buf < fuel)%nat -> 0 < max ->
  concat (chop fuel max buf) = buf /\ Forall (fun v => nlen v <= max) (chop fuel max buf) /\
  (forall j v, nth_error (chop fuel max buf) j = Some v -> (S j < length (chop fuel max buf))%nat -> nlen v = max) /\
  (buf <> [] -> Forall (fun v : bytes => v <> []) (chop fuel max buf)) /\
  nlen (chop fuel max buf) = 1 + (nlen buf - (match buf with [] => 0 | _ => 1 end)) / max.
Proof.
  induction fuel as [|k IH]; intros max buf L M; [lia|]. cbn [chop].
  set (m := N.min (nlen buf) max).
  assert (Lt : nlen (ntake m buf) = m) by (apply nlen_ntake; lia).
  assert (Ld : nlen (ndrop m buf) = nlen buf - m) by apply nlen_ndrop.
  destruct (ndrop m buf) as [|b rest] eqn:D.
  - cbn in Ld. assert (m = nlen buf) by lia. cbn [concat app].
    assert (Tk : ntake m buf = buf) by (apply ntake_all; lia). rewrite Tk. splits.
    + now rewrite app_nil_r.
    + constructor; auto. lia.
    + intros [|j] v E Hl; cbn in Hl; lia.
    + intro Nb. constructor; auto.
    + change (nlen [buf]) with 1. destruct buf as [|x buf']; [now rewrite N.div_0_l by lia|].
      rewrite N.div_small; [lia|]. assert (nlen (x :: buf') <> 0) by (rewrite nlen_cons; lia). lia.
  - assert (Hm : m = max) by (rewrite nlen_cons in Ld; lia).
    assert (nlen buf = max + nlen (b :: rest)) by lia.
    destruct (IH max (b :: rest)) as (I1 & I2 & I3 & I4 & I5); auto. { unfold nlen in *. cbn in *. lia. }
    splits.
    + cbn [concat]. rewrite I1, <- D. apply ntake_ndrop.
    + constructor; auto. lia.
    + intros [|j] v E Hl; cbn [nth_error length] in *; [injection E as <-; lia|]. apply (I3 j); auto. lia.
    + intro Nb. constructor; [intro Z; rewrite Z in Lt; cbn in Lt; lia|]. apply I4. discriminate.
    + rewrite nlen_cons, I5. destruct buf as [|x buf']; [discriminate|].
      replace (nlen (x :: buf') - 1) with ((nlen (b :: rest) - 1) + 1 * max) by (rewrite nlen_cons in *; lia).
      rewrite N.div_add by lia. lia.
Qed.

Lemma bind_assoc : forall A B C (m : res A) (g : A -> res B) (h : B -> res C), bind (bind m g) h = bind m (fun x => bind (g x) h).
Proof. intros. destruct m; reflexivity. Qed.

Lemma loop_eq : forall fuel buf n max f ct final i, (0 <= f <= MAX_MS)%Z -> (length buf < fuel)%nat -> 0 < max -> i + nlen (chop fuel max buf) <= two64 ->
  seg_loop conv signer si fuel buf n max f ct final i =
  let! l := packets mkc n f ct (Some final) i (chop fuel max buf) in map_res (seg_sign signer si) l.
Proof.
  induction fuel as [|k IH]; intros buf n max f ct final i Hf L M Hi; [lia|]. cbn [seg_loop chop packets] in *.
  set (m := N.min (nlen buf) max) in *.
  destruct (seg_packet_eq n i f ct) as (ci & Hc & Hp); auto. { rewrite nlen_cons in Hi. lia. }
  rewrite Hc, Hp. cbn [bind].
  assert (Ed : da_setContent (ntake m buf) (da_setFinalBlock (Some final) (raw n f ct None blk_invalid ci)) = raw n f ct (Some final) (mkc (ntake m buf)) ci) by reflexivity.
  rewrite Ed.
  destruct (ndrop m buf) as [|b rest] eqn:D.
  - cbn [packets bind map_res]. destruct (seg_sign _ _ _); reflexivity.
  - assert (Ld : nlen (ndrop m buf) = nlen buf - m) by apply nlen_ndrop. rewrite D in Ld.
    assert (Lk : (length (b :: rest) < k)%nat). { rewrite nlen_cons in Ld. unfold nlen in *. cbn [length] in *. lia. }
    rewrite IH; auto. 2:{ rewrite nlen_cons in Hi. lia. }
    destruct (packets_ok mkc n f ct (Some final) (chop k max (b :: rest)) (i + 1)) as (r & E & _). { rewrite nlen_cons in Hi. lia. }
    rewrite E. cbn [bind map_res]. reflexivity.
Qed.

Definition setfin (fc : comp) (d : data) : data := da_setFinalBlock (Some fc) d.
Lemma setfin_raw : forall fc n f ct c ci, setfin fc (raw n f ct None c ci) = raw n f ct (Some fc) c ci.
Proof. reflexivity. Qed.
Lemma packets_fin : forall fc mk n f ct chunks i l, packets mk n f ct None i chunks = Ok l ->
  packets mk n f ct (Some fc) i chunks = Ok (map (setfin fc) l).
Proof.
  intros fc mk n f ct. induction chunks as [|v c IH]; intros i l H; cbn [packets] in *; [now apply Ok_inj in H; subst|].
  destruct (fromKind conv KSegment i); cbn [bind] in *; [|discriminate].
  destruct (packets mk n f ct None (i + 1) c) as [r|] eqn:E; cbn [bind] in *; [|discriminate].
  apply Ok_inj in H. subst l. rewrite (IH _ _ E). reflexivity.
Qed.
Lemma map_res_map : forall A B C (g : B -> res C) (h : A -> B) l, map_res (fun x => g (h x)) l = map_res g (map h l).
Proof. intros A B C g h. induction l as [|x l IH]; cbn; auto. now rewrite IH. Qed.
Lemma reads_eq : forall (reads : list bytes) n f ct i, (0 <= f <= MAX_MS)%Z -> Forall (fun v : bytes => v <> []) reads -> i + nlen reads <= two64 ->
  seg_reads conv reads n f ct i = packets mkcb n f ct None i reads.
Proof.
  induction reads as [|v r IH]; intros n f ct i Hf Hv Hi; [reflexivity|]. inversion Hv as [|? ? V1 V2]; subst.
  rewrite nlen_cons in Hi. cbn [seg_reads packets]. destruct v as [|b v]; [congruence|].
  destruct (seg_packet_eq n i f ct) as (ci & Hc & Hp); auto; [lia|]. rewrite Hc, Hp. cbn [bind].
  rewrite IH; auto. lia.
Qed.
Lemma packets_len : forall mk n f ct final chunks i l, packets mk n f ct final i chunks = Ok l -> length l = length chunks.
Proof.
  intros mk n f ct final. induction chunks as [|v c IH]; intros i l H; cbn [packets] in *; [now apply Ok_inj in H; subst|].
  destruct (fromKind conv KSegment i); cbn [bind] in *; [|discriminate].
  destruct (packets mk n f ct final (i + 1) c) as [r|] eqn:E; cbn [bind] in *; [|discriminate].
  apply Ok_inj in H. subst l. cbn. f_equal. eauto.
Qed.
Lemma stream_eq : forall (reads : list bytes) n max f ct, (0 <= f <= MAX_MS)%Z -> Forall (fun v : bytes => v <> []) reads -> nlen reads <= two64 -> reads <> [] -> 0 < max ->
  seg_stream conv signer si reads n max f ct =
  let! fc := fromKind conv KSegment (nlen reads - 1) in
  let! l := packets mkcb n f ct (Some fc) 0 reads in map_res (seg_sign signer si) l.
Proof.
  intros reads n max f ct Hf Hv Hl Hr M. unfold seg_stream. destruct (max =? 0) eqn:E0; [lia|].
  rewrite reads_eq by (auto; lia).
  destruct (packets_ok mkcb n f ct None reads 0) as (l & E & Ll & _); [rewrite N.add_0_l; exact Hl|]. rewrite E. cbn [bind].
  destruct l as [|d l]; [destruct reads; [congruence|discriminate]|]. cbn [bind].
  assert (Hlen : nlen (d :: l) = nlen reads) by (unfold nlen; congruence). rewrite Hlen.
  destruct (fromKind conv KSegment (nlen reads - 1)) as [fc|]; [|reflexivity]. cbn [bind].
  rewrite (packets_fin fc _ _ _ _ _ _ _ E). cbn [bind]. rewrite map_res_map. reflexivity.
Qed.

(* result of signing a list *)
Lemma map_res_nth : forall A B (g : A -> res B) l r, map_res g l = Ok r ->
  length r = length l /\ forall j y, nth_error r j = Some y -> exists x, nth_error l j = Some x /\ g x = Ok y.
Proof.
  intros A B g. induction l as [|x l IH]; intros r H; cbn in H.
  - apply Ok_inj in H. subst. split; auto. intros [|j] y E; discriminate.
  - destruct (g x) as [y|] eqn:G; cbn in H; [|discriminate]. destruct (map_res g l) as [ys|]; cbn in H; [|discriminate].
    apply Ok_inj in H. subst r. destruct (IH ys eq_refl) as [L P]. split; [cbn; congruence|].
    intros [|j] z E; cbn in E; [injection E as <-; exists x; auto|]. destruct (P j z E) as (w & W). exists w. exact W.
Qed.
Lemma map_res_total : forall A B (g : A -> res B) x0 l, (forall x, In x l -> is_ok (g x) = true \/ g x = Err x0) ->
  (exists r, map_res g l = Ok r) \/ map_res g l = Err x0.
Proof.
  intros A B g x0. induction l as [|x l IH]; intro H; cbn; eauto.
  destruct (H x (or_introl eq_refl)) as [G|G]; destruct (g x) as [y|] eqn:E; cbn; try discriminate; [|now right; injection G as ->].
  destruct (IH (fun y I => H y (or_intror I))) as [[r R]|R]; rewrite R; cbn; eauto.
Qed.

Lemma sign_fields : forall n f ct fc c ci i count, seg_args_ok n f ct si -> fromKind conv KSegment i = Ok ci -> fromKind conv KSegment (count - 1) = Ok fc ->
  content_ok c -> (exists d, seg_sign signer si (raw n f ct (Some fc) c ci) = Ok d /\
     seg_packet_ok conv signer si n (Z.to_N f) ct count i d /\ ckey (d_content d) = ckey c) \/
  seg_sign signer si (raw n f ct (Some fc) c ci) = Err ELength.
Proof.
  intros n f ct fc c ci i count (A1 & A2 & A3 & A4 & A5 & A6) Hi Hf Hc.
  assert (O : da_ok (raw n f ct (Some fc) c ci)).
  { eapply raw_ok; eauto. intros x E. injection E as <-. now apply fromKind_valid in Hf. }
  destruct (seg_sign_total _ O A4 A5 A6) as [(d & e & S1 & S2)|E]; auto. left. exists d. split; auto.
  destruct (da_sign_range signer si _ d e O A4 S1) as (u & so & _ & _ & R & _ & Sv & W & V & De).
  unfold signed_view in V.
  pose proof (f_equal (fun x => fst (fst (fst x))) V) as V1. pose proof (f_equal (fun x => snd (fst (fst x))) V) as V2.
  pose proof (f_equal (fun x => snd (fst x)) V) as V3. pose proof (f_equal snd V) as V4. cbn [fst snd] in V1, V2, V3, V4. split; auto.
  - exists ci, fc, e, u. splits; auto.
    + rewrite V1. unfold raw, nkey. cbn. now rewrite map_app.
Qed.

Lemma mkc_ok : forall v, nlen v < two64 -> content_ok (mkc v).
Proof. intros v L. right. split; auto. unfold blk_ok, mkc, blk_octets. cbn. change (is_tlv 21 v (tlv_enc 21 v)) || idtac.
  assert (X := tlv_enc_is 21 v eq_refl eq_refl L). rewrite <- mkBlock_wire in X. exact X. Qed.

Lemma buffer_eq : forall buf n max f ct, (0 <= f <= MAX_MS)%Z -> nlen buf < two64 -> 0 < max ->
  exists fc l, fromKind conv KSegment (nlen (chop (S (length buf)) max buf) - 1) = Ok fc /\
    packets mkc n f ct (Some fc) 0 (chop (S (length buf)) max buf) = Ok l /\
    seg_buffer conv signer si buf n max f ct = map_res (seg_sign signer si) l.
Proof.
  intros buf n max f ct Hf Lb M.
  destruct (chop_spec (S (length buf)) max buf ltac:(lia) M) as (C1 & C2 & C3 & C4 & C5).
  set (ch := chop (S (length buf)) max buf) in *.
  assert (Lc : nlen ch <= two64).
  { rewrite C5. destruct buf as [|x b]; [rewrite N.div_0_l by lia; unfold two64; lia|].
    assert ((nlen (x :: b) - 1) / max <= nlen (x :: b) - 1) by (rewrite <- (N.div_1_r (nlen (x :: b) - 1)) at 2; apply N.div_le_compat_l; lia).
    assert (nlen (x :: b) <> 0) by (rewrite nlen_cons; lia). lia. }
  destruct (fromKind_ok conv KSegment (nlen ch - 1)) as [fc Hfc]; [lia|].
  destruct (packets_ok mkc n f ct (Some fc) ch 0) as (l & E & Ll & _); [lia|].
  exists fc, l. splits; auto. unfold seg_buffer. destruct (max =? 0) eqn:E0; [lia|].
  cbv zeta. rewrite <- C5. rewrite Hfc. cbn [bind]. rewrite loop_eq; auto.
  fold ch. rewrite E. cbn [bind]. destruct (map_res (seg_sign signer si) l) as [r|] eqn:R; cbn [bind]; auto.
  apply map_res_nth in R as [R _]. unfold nlen. rewrite R, Ll. now rewrite N.eqb_refl.
Qed.

Lemma signed_list : forall mk chunks n f ct fc l, seg_args_ok n f ct si -> (forall v, In v chunks -> content_ok (mk v) /\ c_val (mk v) = v) ->
  nlen chunks <= two64 -> chunks <> [] -> fromKind conv KSegment (nlen chunks - 1) = Ok fc ->
  packets mk n f ct (Some fc) 0 chunks = Ok l ->
  map_res (seg_sign signer si) l = Err ELength \/
  exists segs, map_res (seg_sign signer si) l = Ok segs /\ segs_ok conv signer si n (Z.to_N f) ct segs /\ map content segs = chunks /\
    (forall i d, nth_error segs i = Some d -> exists v, nth_error chunks i = Some v /\ ckey (d_content d) = ckey (mk v)).
Proof.
  intros mk chunks n f ct fc l A Hm Lc Nc Hfc E.
  destruct (packets_ok mk n f ct (Some fc) chunks 0) as (l' & E' & Ll & P); [lia|]. rewrite E in E'. apply Ok_inj in E'. subst l'.
  destruct (map_res_total _ _ (seg_sign signer si) ELength l) as [[segs R]|R]; auto.
  { intros x I. apply In_nth_error in I as [j I]. destruct (P j x I) as (v & ci & P1 & P2 & ->).
    destruct (sign_fields n f ct fc (mk v) ci (0 + N.of_nat j) (nlen chunks) A P2 Hfc) as [(d & D & _)|D]; auto.
    - apply Hm. eapply nth_error_In; eauto.
    - left. now rewrite D. }
  right. exists segs. split; auto. apply map_res_nth in R as [Lr R].
  assert (Ls : nlen segs = nlen chunks) by (unfold nlen; congruence).
  assert (X : forall i d, nth_error segs i = Some d -> exists v, nth_error chunks i = Some v /\
     seg_packet_ok conv signer si n (Z.to_N f) ct (nlen segs) (N.of_nat i) d /\ ckey (d_content d) = ckey (mk v)).
  { intros i d D. destruct (R i d D) as (x & D1 & D2). destruct (P i x D1) as (v & ci & P1 & P2 & ->).
    destruct (sign_fields n f ct fc (mk v) ci (0 + N.of_nat i) (nlen chunks) A P2 Hfc) as [(d' & D' & K1 & K2)|D']; try congruence.
    - apply Hm. eapply nth_error_In; eauto.
    - assert (d' = d) by congruence. subst d'. exists v. rewrite Ls. cbn in K1. splits; auto. }
  splits.
  - split.
    + intros ->. destruct chunks; [congruence|]. rewrite nlen_cons in Ls. cbn in Ls. lia.
    + intros i d D. destruct (X i d D) as (v & _ & K & _). exact K.
  - assert (Lm : length (map content segs) = length chunks) by (rewrite map_length; congruence).
    apply nth_error_ext'. intro i. destruct (nth_error segs i) as [d|] eqn:D.
    + destruct (X i d D) as (v & V & _ & K). rewrite (map_nth_error content _ _ D), V. f_equal.
      unfold content. unfold ckey in K. injection K as _ K. rewrite K. apply Hm. eapply nth_error_In; eauto.
    + apply nth_error_None in D. transitivity (@None bytes); [|symmetry]; apply nth_error_None; [rewrite map_length|]; lia.
  - intros i d D. destruct (X i d D) as (v & V & _ & K). eauto.
Qed.
End Seg.
