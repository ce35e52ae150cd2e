(* C44: segmentation. *)
From Coq Require Import Lia ZifyBool ZifyNat ZifyN.
From Verif Require Import Base BaseLemmas M_Tlv P_Tlv S_Tlv P_Block M_Str M_Name S_Name P_Name P_NameUri M_Packet S_Packet P_Packet P_Data P_DataT
  M_Segmenter S_Segmenter P_Segmenter.

(* For every object and every maximum above 0: either a packet would exceed the largest possible buffer, or the packets are
   numbered from 0, carry the number of the last one as final block id, are signed, and their contents concatenate to the
   object; all but the last are full, and there are as many as that takes, at least one. *)
Theorem C44_segment_buffer : forall conv signer si obj n max f ct, seg_args_ok n f ct si -> nlen obj < 2 ^ 64 -> 0 < max ->
  seg_buffer conv signer si obj n max f ct = Err ELength \/
  exists segs, seg_buffer conv signer si obj n max f ct = Ok segs /\ segs_ok conv signer si n (Z.to_N f) ct segs /\
    concat (map content segs) = obj /\
    Forall (fun d => fst (ckey (d_content d)) = 21 /\ nlen (content d) <= max) segs /\
    (forall i d, nth_error segs i = Some d -> (S i < length segs)%nat -> nlen (content d) = max) /\
    nlen segs = N.max 1 ((nlen obj + (max - 1)) / max).
Proof.
  intros conv signer si obj n max f ct A L M. pose proof A as (_ & Hf & _).
  destruct (buffer_eq conv signer si obj n max f ct Hf L M) as (fc & l & E1 & E2 & ->).
  destruct (chop_spec signer (S (length obj)) max obj ltac:(lia) M) as (C1 & C2 & C3 & C4 & C5).
  set (ch := chop (S (length obj)) max obj) in *.
  assert (Lv : forall v, In v ch -> nlen v <= nlen obj).
  { intros v I. rewrite <- C1. apply in_split in I as (a & b & ->). rewrite concat_app. cbn [concat]. rewrite !nlen_app. lia. }
  assert (Lc : nlen ch <= two64).
  { rewrite C5. destruct obj as [|x b]; [rewrite N.div_0_l by lia; unfold two64; lia|].
    assert ((nlen (x :: b) - 1) / max <= nlen (x :: b) - 1) by (rewrite <- (N.div_1_r (nlen (x :: b) - 1)) at 2; apply N.div_le_compat_l; lia).
    assert (nlen (x :: b) <> 0) by (rewrite nlen_cons; lia). unfold two64 in *. lia. }
  destruct (signed_list conv signer si mkc ch n f ct fc l A) as [E|(segs & E & S1 & S2 & S3)]; auto.
  { intros v I. split; [|reflexivity]. apply mkc_ok. apply Lv in I. unfold two64. lia. }
  { apply chop_nil. discriminate. }
  right. exists segs. splits; auto.
  - rewrite S2. exact C1.
  - apply Forall_forall. intros d I. apply In_nth_error in I as [i I]. destruct (S3 i d I) as (v & V & K).
    rewrite K. split; [reflexivity|]. unfold content. unfold ckey in K. injection K as _ K. rewrite K. cbn.
    rewrite Forall_forall in C2. apply C2. eapply nth_error_In; eauto.
  - intros i d I Hl. destruct (S3 i d I) as (v & V & K). unfold content. unfold ckey in K. injection K as _ K. rewrite K. cbn.
    apply (C3 i v V). rewrite <- S2, map_length. exact Hl.
  - assert (Ls : nlen segs = nlen ch) by (rewrite <- S2; unfold nlen; now rewrite map_length).
    rewrite Ls, C5. destruct obj as [|x b].
    + cbn [nlen length N.of_nat]. change (nlen []) with 0. rewrite N.div_0_l by lia. rewrite N.div_small; lia.
    + assert (nlen (x :: b) <> 0) by (rewrite nlen_cons; lia).
      replace (nlen (x :: b) + (max - 1)) with ((nlen (x :: b) - 1) + 1 * max) by lia. rewrite N.div_add by lia. lia.
Qed.
Print Assumptions C44_segment_buffer.

(* Reading from a stream that returns the object in non-empty reads of any sizes: one packet for each read *)
Theorem C44_segment_stream : forall conv signer si (reads : list bytes) n max f ct, seg_args_ok n f ct si -> nlen (concat reads) < 2 ^ 64 -> 0 < max ->
  reads <> [] -> Forall (fun r : bytes => r <> []) reads ->
  seg_stream conv signer si reads n max f ct = Err ELength \/
  exists segs, seg_stream conv signer si reads n max f ct = Ok segs /\ segs_ok conv signer si n (Z.to_N f) ct segs /\ map content segs = reads.
Proof.
  intros conv signer si reads n max f ct A L M Nr Fr. pose proof A as (_ & Hf & _).
  assert (Lr : nlen reads <= nlen (concat reads)).
  { clear - Fr. induction Fr as [|r l Hr F IH]; [cbn; lia|]. cbn [concat]. rewrite nlen_cons, nlen_app.
    assert (nlen r <> 0) by (intro Z; apply nlen_0 in Z; auto). lia. }
  assert (Lr2 : nlen reads <= two64) by (unfold two64; lia).
  rewrite stream_eq; auto.
  assert (Z0 : nlen reads <> 0) by (intro Z; apply nlen_0 in Z; auto).
  destruct (fromKind_ok conv KSegment (nlen reads - 1)) as [fc Hfc]; [unfold two64 in *; lia|]. rewrite Hfc. cbn [bind].
  destruct (packets_ok conv signer mkcb n f ct (Some fc) reads 0) as (l & E & _); [rewrite N.add_0_l; exact Lr2|]. rewrite E. cbn [bind].
  destruct (signed_list conv signer si mkcb reads n f ct fc l A) as [R|(segs & R & S1 & S2 & S3)]; auto.
  - intros v I. split; [|reflexivity]. right. split; auto. apply blk_ok_bare; try reflexivity.
    apply in_split in I as (a & b & ->). rewrite concat_app in L. cbn [concat] in L. rewrite !nlen_app in L. unfold two64. lia.
  - right. exists segs. auto.
Qed.
Print Assumptions C44_segment_stream.

(* The two overloads give the same packets for the same non-empty object when the stream only returns less than asked at
   the end of file *)
Theorem C44_overloads_agree_partial : forall conv signer si (reads : list bytes) n max f ct, seg_args_ok n f ct si -> nlen (concat reads) < 2 ^ 64 -> 0 < max ->
  reads <> [] -> Forall (fun r : bytes => r <> [] /\ nlen r <= max) reads -> (forall i r, nth_error reads i = Some r -> (S i < length reads)%nat -> nlen r = max) ->
  seg_stream conv signer si reads n max f ct = seg_buffer conv signer si (concat reads) n max f ct.
Proof.
  intros conv signer si reads n max f ct A L M Nr Fr Full. pose proof A as (_ & Hf & _).
  assert (Fr' : Forall (fun r : bytes => r <> []) reads) by (eapply Forall_impl; [|exact Fr]; tauto).
  assert (Lr : nlen reads <= nlen (concat reads)).
  { clear - Fr'. induction Fr' as [|r l Hr F IH]; [cbn; lia|]. cbn [concat]. rewrite nlen_cons, nlen_app.
    assert (nlen r <> 0) by (intro Z; apply nlen_0 in Z; auto). lia. }
  assert (Lr2 : nlen reads <= two64) by (unfold two64; lia).
  assert (Ch : forall fuel rs, (length (concat rs) < fuel)%nat -> rs <> [] -> Forall (fun r : bytes => r <> [] /\ nlen r <= max) rs ->
     (forall i r, nth_error rs i = Some r -> (S i < length rs)%nat -> nlen r = max) -> chop fuel max (concat rs) = rs).
  { clear - M. induction fuel as [|k IH]; intros rs Lf Nr Fr Full; [lia|]. destruct rs as [|r rs]; [congruence|].
    inversion Fr as [|? ? [F0 F1] F2]; subst. cbn [concat chop]. destruct rs as [|r' rs].
    - cbn [concat]. rewrite app_nil_r, N.min_l by lia. now rewrite ntake_all, ndrop_all by lia.
    - assert (Hr : nlen r = max). { apply (Full O r); auto. cbn. lia. }
      rewrite N.min_r by (rewrite nlen_app; lia). rewrite <- Hr, ntake_app, ndrop_app.
      assert (Hn : concat (r' :: rs) <> []). { inversion F2 as [|? ? [G0 _] _]; subst. cbn. destruct r'; [congruence|discriminate]. }
      destruct (concat (r' :: rs)) as [|b t] eqn:Ec; [congruence|]. rewrite Hr, <- Ec. f_equal. apply IH; auto; try discriminate.
      + cbn [concat] in Lf. rewrite Ec. rewrite app_length in Lf. cbn [concat] in Ec. rewrite Ec in Lf. destruct r; [congruence|]. cbn in Lf. cbn. lia.
      + intros i x E Hl. apply (Full (S i) x); auto. cbn in *. lia. }
  rewrite stream_eq; auto.
  destruct (buffer_eq conv signer si (concat reads) n max f ct Hf L M) as (fc & l & E1 & E2 & ->).
  rewrite Ch in E1, E2; auto. rewrite E1. cbn [bind].
  destruct (packets_ok conv signer mkcb n f ct (Some fc) reads 0) as (l' & E & Ll & P); [rewrite N.add_0_l; exact Lr2|]. rewrite E. cbn [bind].
  clear - E E2. revert l l' E E2. generalize 0. induction reads as [|v rs IH]; intros i l l' E E2; cbn [packets] in *.
  - apply Ok_inj in E, E2. now subst.
  - destruct (fromKind conv KSegment i) as [ci|]; cbn [bind] in *; [|discriminate].
    destruct (packets conv mkcb n f ct (Some fc) (i + 1) rs) as [a|] eqn:Ea; cbn [bind] in *; [|discriminate].
    destruct (packets conv mkc n f ct (Some fc) (i + 1) rs) as [b|] eqn:Eb; cbn [bind] in *; [|discriminate].
    apply Ok_inj in E, E2. subst l l'. cbn [map_res].
    rewrite (seg_sign_ext signer si n f ct (Some fc) ci (mkcb v) (mkc v)); [|reflexivity|symmetry; apply mkBlock_wire].
    destruct (seg_sign _ _ _); cbn [bind]; auto. now rewrite (IH _ _ _ Ea Eb).
Qed.
Print Assumptions C44_overloads_agree_partial.
Definition seg_si : siginfo := mkSI (Some 0) None [] None.
Definition seg_name : name := nm_append (mkComp 8 None [x41]) nm_empty.
Definition seg_signer (u : bytes) : bytes := [nb (nlen u)].
(* missing: an empty object.  The buffer overload makes a packet with an empty Content, the stream overload one without Content. *)
Theorem C44_overloads_differ_refuted : exists a b,
  seg_buffer TYPED seg_signer seg_si [] seg_name 10 0 0 = Ok [a] /\ seg_stream TYPED seg_signer seg_si [] seg_name 10 0 0 = Ok [b] /\
  da_hasContent a = true /\ da_hasContent b = false /\ content a = [] /\ content b = [] /\ nkey (d_name a) = nkey (d_name b).
Proof.
  do 2 eexists. split; [vm_compute; reflexivity|]. split; [vm_compute; reflexivity|].
  split; [reflexivity|]. split; [reflexivity|]. split; [reflexivity|]. split; reflexivity.
Qed.
Print Assumptions C44_overloads_differ_refuted.
Example C44_ex : seg_args_ok seg_name 1000 0 seg_si /\ exists a b c,
  seg_buffer TYPED seg_signer seg_si [x01; x02; x03; x04; x05] seg_name 2 1000 0 = Ok [a; b; c] /\
  map content [a; b; c] = [[x01; x02]; [x03; x04]; [x05]] /\ nkey (d_name c) = [(8, [x41]); (50, [x02])] /\
  mi_fields (d_meta a) = (0, 1000, Some (50, [x02]), []) /\
  seg_stream TYPED seg_signer seg_si [[x01; x02]; [x03; x04]; [x05]] seg_name 2 1000 0 = Ok [a; b; c].
Proof.
  split.
  - unfold seg_args_ok. splits; try lia; try discriminate.
    + repeat constructor.
    + unfold si_ok. cbn. splits; try discriminate; auto. intros t E. injection E as <-. lia.
  - do 3 eexists. split; [vm_compute; reflexivity|]. split; [vm_compute; reflexivity|]. split; [vm_compute; reflexivity|].
    split; [vm_compute; reflexivity|]. vm_compute. reflexivity.
Qed.
