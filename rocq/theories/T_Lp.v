(* C26-C29: NDNLPv2 packets. *)
From Coq Require Import Lia ZifyBool ZifyNat ZifyN ZArith Sorted.
From Verif Require Import Base BaseLemmas M_Tlv P_Tlv S_Tlv P_Block M_Lp S_Lp P_Lp P_LpT.
From Verif Require P_InterestD.

(* a packet used as example: two Acks, a Nack and a fragment, added in this order *)
Definition ex_frag : bytes := tlv_enc tInterest (str "xyz").
Definition ex_lops : list lop :=
  [LAdd FFragment (VRange ex_frag); LAdd FAck (VNum 7); LSet FNack (VEnum 50); LAdd FAck (VNum 5); LSet FNack (VEnum 150); LAdd FSequence (VNum 9); LRemove FSequence 0; LEncode].
Definition ex_lp : lpp := lp_run ex_lops lp_default.
Lemma ex_lp_reach : lp_reach ex_lp.
Proof. exists ex_lops. split; [reflexivity|]. unfold ex_lops. repeat apply Forall_cons; try apply Forall_nil; cbn; auto; unfold two64; lia. Qed.
Example ex_lp_types : lp_types ex_lp = [800; 836; 836; 80] /\ lp_list FAck ex_lp = Ok [VNum 7; VNum 5] /\ lp_get FNack 0 ex_lp = Ok (VEnum 150).
Proof. split; [vm_compute; reflexivity|]. split; vm_compute; reflexivity. Qed.

(* ---- C26 ---- *)
(* whatever was done to a packet, its fields are in the required order, and only Ack is repeated *)
Theorem C26_order : forall p, lp_reach p -> lp_legal (lp_types p).
Proof. intros p H. apply legal_iff. now apply reach_inv in H as (_ & L & _). Qed.
Print Assumptions C26_order.
(* and decoding what it encodes to gives the same fields; a packet that consists only of a fragment has to hold one Interest or Data *)
Theorem C26_roundtrip : forall p w p' q, lp_reach p -> lp_encode p = (Ok w, p') -> ~ (exists v, lp_fields p = [(80, v)]) ->
  blockFromWire (e_wire w) = Ok w /\ e_type w = tLpPacket /\ exists p2, lp_decode w q = (p2, None) /\ lp_fields p2 = lp_fields p.
Proof.
  intros p w p' q R E N. destruct (encode_rt p w p' q (reach_inv p R) E N) as (A & B & C). splits; auto. now apply blockFromWire_wf.
Qed.
Print Assumptions C26_roundtrip.
Theorem C26_roundtrip_bare : forall p v t c q, lp_reach p -> lp_fields p = [(80, v)] -> (t = tInterest \/ t = tData) -> is_tlv t c v -> nlen v < 2 ^ 62 ->
  exists w p2, lp_encode p = (Ok w, p) /\ blockFromWire (e_wire w) = Ok w /\ e_wire w = v /\ lp_decode w q = (p2, None) /\ lp_fields p2 = lp_fields p.
Proof.
  intros p v t c q R F T V L. destruct (encode_bare p v t c q (reach_inv p R) F T V L) as (w & p2 & A & B & C & D & E). exists w, p2. splits; auto. now apply blockFromWire_wf.
Qed.
Print Assumptions C26_roundtrip_bare.
(* encoding fails only beyond the size of a buffer *)
Theorem C26_encodes : forall p, lp_reach p -> ~ (exists v, lp_fields p = [(80, v)]) ->
  (exists w p', lp_encode p = (Ok w, p')) \/ lp_encode p = (Err ELength, p).
Proof.
  intros p _ NB. unfold lp_encode.
  assert (G : (exists w p', match lp_wire p with Some w => (Ok w, p) | None => match lp_block tLpPacket (concat (map e_wire (map (fun e => mkBlock (e_type e) (e_val e)) (lp_es p)))) with
        | Ok w => (Ok w, mkLp (map (fun e => mkBlock (e_type e) (e_val e)) (lp_es p)) (Some w)) | Err e => (Err e, p) end end = (Ok w, p')) \/
      match lp_wire p with Some w => (Ok w, p) | None => match lp_block tLpPacket (concat (map e_wire (map (fun e => mkBlock (e_type e) (e_val e)) (lp_es p)))) with
        | Ok w => (Ok w, mkLp (map (fun e => mkBlock (e_type e) (e_val e)) (lp_es p)) (Some w)) | Err e => (Err e, p) end end = (Err ELength, p)).
  { destruct (lp_wire p); [left; eauto|]. unfold lp_block, alloc. destruct (_ <? _); cbn; [right; reflexivity|left; eauto]. }
  destruct (lp_es p) as [|x [|y l]] eqn:Ee; auto. destruct (N.eqb_spec (e_type x) 80) as [T|T]; auto. exfalso. apply NB.
  exists (e_val x). unfold lp_fields. rewrite Ee. cbn. now rewrite T.
Qed.
Print Assumptions C26_encodes.
Example C26_ex : exists w p', lp_encode ex_lp = (Ok w, p') /\ ~ (exists v, lp_fields ex_lp = [(80, v)]).
Proof. do 2 eexists. split; [vm_compute; reflexivity|]. intros [v H]. vm_compute in H. discriminate H. Qed.
Example C26_ex_bare : lp_reach (lp_run [LAdd FFragment (VRange ex_frag)] lp_default) /\ lp_fields (lp_run [LAdd FFragment (VRange ex_frag)] lp_default) = [(80, ex_frag)] /\
  is_tlv tInterest (str "xyz") ex_frag.
Proof.
  split; [|split].
  - eexists. split; [reflexivity|]. apply Forall_cons; [exact I|apply Forall_nil].
  - vm_compute. reflexivity.
  - apply tlv_enc_is; reflexivity.
Qed.
(* A packet that consists only of a fragment encodes as the first element inside the fragment.  Of a fragment with two
   elements the second is lost; with octets that are not an element the encoding throws; and for an empty fragment the
   code reads the first element of an empty vector. *)
Definition ex_two : bytes := tlv_enc tInterest (str "a") ++ tlv_enc tInterest (str "b").
Theorem C26_roundtrip_refuted :
  (exists w p2, lp_encode (lp_run [LAdd FFragment (VRange ex_two)] lp_default) = (Ok w, lp_run [LAdd FFragment (VRange ex_two)] lp_default) /\
     lp_decode w lp_default = (p2, None) /\ lp_get FFragment 0 p2 = Ok (VRange (tlv_enc tInterest (str "a")))) /\
  fst (lp_encode (lp_run [LAdd FFragment (VRange (str "ab"))] lp_default)) = Err ETlv /\
  fst (lp_encode (lp_run [LAdd FFragment (VRange [])] lp_default)) = Err EUb.
Proof.
  split; [|split; vm_compute; reflexivity]. do 2 eexists. split; [vm_compute; reflexivity|]. split; vm_compute; reflexivity.
Qed.
Print Assumptions C26_roundtrip_refuted.

(* ---- C27 ---- *)
Theorem C27_set : forall f v p p', lp_reach p -> lv_readable f v -> lp_set f v p = (p', None) ->
  lp_get f 0 p' = Ok v /\ lp_list f p' = Ok [v] /\ lp_count f p' = 1%nat /\
  forall g, g <> f -> lp_count g p' = lp_count g p /\ lp_list g p' = lp_list g p /\ forall i, lp_get g i p' = lp_get g i p.
Proof.
  intros f v p p' R V H. destruct (set_get f v p p' (reach_inv p R) V H) as (A & B & C & D). splits; auto. intros g G. destruct (D g G) as (E & _ & F & X). auto.
Qed.
Print Assumptions C27_set.
Theorem C27_add : forall f v p p', lp_reach p -> lv_readable f v -> lp_add f v p = (p', None) ->
  lp_count f p' = S (lp_count f p) /\ (forall i, (i < lp_count f p)%nat -> lp_get f i p' = lp_get f i p) /\ lp_get f (lp_count f p) p' = Ok v /\
  (forall l, lp_list f p = Ok l -> lp_list f p' = Ok (l ++ [v])) /\
  forall g, g <> f -> lp_count g p' = lp_count g p /\ lp_list g p' = lp_list g p /\ forall i, lp_get g i p' = lp_get g i p.
Proof.
  intros f v p p' R V H. destruct (add_get f v p p' (reach_inv p R) V H) as (A & B & C & D & E). splits; auto. intros g G. destruct (E g G) as (X & _ & Y & Z). auto.
Qed.
Print Assumptions C27_add.
(* add and set throw, and leave the packet as it was (set: without the field), when the field is there already and cannot be
   repeated, or when the value cannot be encoded *)
Theorem C27_add_throws : forall f v p, lp_reach p -> f <> FAck -> (0 < lp_count f p)%nat -> lp_add f v p = (p, Some EInvalidArg).
Proof. intros f v p _ F H. unfold lp_add, lp_has. apply Nat.ltb_lt in H. rewrite H. destruct f; try reflexivity. now elim F. Qed.
Print Assumptions C27_add_throws.
Theorem C27_add_ok : forall f v p, lp_reach p -> lv_readable f v -> (forall b, v = VRange b -> nlen b < 2 ^ 62) -> (forall d, v = VAnn d -> nlen (e_wire d) < 2 ^ 62) ->
  f = FAck \/ lp_count f p = 0%nat -> exists p', lp_add f v p = (p', None).
Proof.
  intros f v p _ [T R] Lb Ld C. unfold lp_add.
  assert (E : negb (lf_repeatable f) && lp_has f p = false).
  { apply Bool.andb_false_iff. destruct C as [-> |C]; [now left|right]. unfold lp_has. rewrite C. reflexivity. }
  rewrite E. assert (Bk : forall t b, nlen b < 2 ^ 62 -> sizeOfVarNumber t <= 9 -> exists x, lp_block t b = Ok x).
  { intros t b L Lt. unfold lp_block, alloc. destruct (MAX_BUFFER <? nlen (tlv_enc t b)) eqn:M; [|cbn; eauto]. exfalso. rewrite tlv_enc_len in M. unfold MAX_BUFFER in M.
    pose proof (sizeOfVarNumber_cases (nlen b)). lia. }
  assert (Sz : forall t n, nlen (tlv_nni t n) < 2 ^ 62).
  { intros t n. unfold tlv_nni. rewrite tlv_enc_len. pose proof (sizeOfVarNumber_cases t). pose proof (sizeOfVarNumber_cases (nlen (encNNI n))). pose proof (sizeOfNNI_cases n). rewrite encNNI_len in *. lia. }
  assert (St : sizeOfVarNumber (lf_type f) <= 9) by (pose proof (sizeOfVarNumber_cases (lf_type f)); lia).
  assert (Q : exists x, lf_encode f v = Ok x).
  { unfold lv_typed in T. unfold lf_encode. destruct (lf_kind f) eqn:K; destruct v; try (destruct T; fail).
    - apply Bk; auto.
    - apply Bk; auto. rewrite encNNI_len. pose proof (sizeOfNNI_cases n). lia.
    - apply Bk; auto. rewrite be_enc_len. lia.
    - unfold nack_encode. apply Bk; auto. vm_compute. discriminate.
    - assert (f = FCachePolicy) by (destruct f; discriminate K || reflexivity). subst f. cbn in R. subst z. unfold cp_encode. cbn [Z.eqb]. apply Bk; auto.
    - apply Bk; auto. reflexivity.
    - apply Bk; auto. }
  destruct Q as [x ->]. eauto.
Qed.
Print Assumptions C27_add_ok.
Theorem C27_remove : forall f i p, lp_reach p ->
  (forall p', lp_remove f i p = (p', None) ->
     (i < lp_count f p)%nat /\ lp_count f p = S (lp_count f p') /\
     (forall j, (j < i)%nat -> lp_get f j p' = lp_get f j p) /\ (forall j, (i <= j)%nat -> lp_get f j p' = lp_get f (S j) p) /\
     forall g, g <> f -> lp_count g p' = lp_count g p /\ lp_list g p' = lp_list g p /\ forall i, lp_get g i p' = lp_get g i p) /\
  (forall p' e, lp_remove f i p = (p', Some e) -> p' = p /\ e = EOutOfRange /\ (lp_count f p <= i)%nat).
Proof.
  intros f i p _. split.
  - intros p' H. destruct (remove_spec f i p p' H) as (A & B & C & D & E). splits; auto. intros g G. destruct (E g G) as (X & _ & Y & Z). auto.
  - intros p' e H. exact (remove_err f i p p' e H).
Qed.
Print Assumptions C27_remove.
Theorem C27_clear : forall f p, lp_reach p -> lp_count f (lp_clear f p) = 0%nat /\ lp_list f (lp_clear f p) = Ok [] /\
  forall g, g <> f -> lp_count g (lp_clear f p) = lp_count g p /\ lp_list g (lp_clear f p) = lp_list g p /\ forall i, lp_get g i (lp_clear f p) = lp_get g i p.
Proof.
  intros f p _. destruct (clear_spec f p) as (A & _ & C & D). splits; auto. intros g G. destruct (D g G) as (X & _ & Y & Z). auto.
Qed.
Print Assumptions C27_clear.
Theorem C27_get_range : forall f i p, (lp_count f p <= i)%nat <-> lp_get f i p = Err EOutOfRange.
Proof. exact get_range. Qed.
Print Assumptions C27_get_range.
(* reading the i-th field of a packet gives the meaning of its octets, and fails exactly if they have none *)
Theorem C27_read : forall f i p v, structured f = false ->
  (lp_get f i p = Ok v <-> exists b, nth_error (map snd (filter (fun x => fst x =? lp_type_of f) (lp_fields p))) i = Some b /\ field_value f b v).
Proof.
  intros f i p v SF. rewrite get_fel.
  assert (E : map snd (filter (fun x => fst x =? lp_type_of f) (lp_fields p)) = map e_val (fel (lf_type f) (lp_es p))).
  { unfold lp_fields, fel. replace (lp_type_of f) with (lf_type f) by (destruct f; reflexivity). induction (lp_es p) as [|e es IH]; cbn; auto. destruct (e_type e =? lf_type f); cbn; congruence. }
  rewrite E, nth_error_map. destruct (nth_error (fel (lf_type f) (lp_es p)) i) as [e|] eqn:NE; cbn [option_map].
  2:{ split; [discriminate|intros (b & X & _); discriminate]. }
  assert (T : e_type e = lf_type f). { apply nth_error_In in NE. apply filter_In in NE as [_ NE]. now apply N.eqb_eq. }
  unfold lf_decode. rewrite T, N.eqb_refl. cbn [negb].
  assert (X : forall P : Prop, P <-> field_value f (e_val e) v -> (P <-> exists b, Some (e_val e) = Some b /\ field_value f b v)).
  { intros P H. rewrite H. split; [eauto|]. intros (b & Q & F). injection Q as <-. auto. }
  apply X. clear X E NE.
  assert (KR : (if nlen (e_val e) =? 0 then Err ETlv else Ok (VRange (e_val e))) = Ok v <-> e_val e <> [] /\ v = VRange (e_val e)).
  { destruct (N.eqb_spec (nlen (e_val e)) 0) as [Z|Z].
    - apply nlen_0 in Z. split; [discriminate|]. intros [H _]. tauto.
    - split; [intro H; injection H as <-|intros [_ ->]; reflexivity]. split; auto. intro Y. apply Z. now rewrite Y. }
  assert (KE : (if negb (nlen (e_val e) =? 0) then Err ETlv else Ok VEmpty) = Ok v <-> e_val e = [] /\ v = VEmpty).
  { destruct (N.eqb_spec (nlen (e_val e)) 0) as [Z|Z]; cbn [negb].
    - apply nlen_0 in Z. split; [intro H; injection H as <-; auto|intros [_ ->]; reflexivity].
    - split; [discriminate|]. intros [H _]. exfalso. apply Z. now rewrite H. }
  assert (KU : (if negb (nlen (e_val e) =? 8) then Err ETlv else Ok (VNum (be_val (e_val e)))) = Ok v <-> nlen (e_val e) = 8 /\ v = VNum (big_endian (e_val e))).
  { rewrite big_endian_be_val. destruct (N.eqb_spec (nlen (e_val e)) 8) as [Z|Z]; cbn [negb].
    - split; [intro H; injection H as <-; auto|intros [_ ->]; reflexivity].
    - split; [discriminate|tauto]. }
  assert (KN : (let! n := readNNIBlock e in Ok (VNum n)) = Ok v <-> exists n, is_nni n (e_val e) /\ v = VNum n).
  { split.
    - destruct (readNNIBlock e) as [n|] eqn:R; cbn [bind]; intro H; [|discriminate H]. injection H as <-. exists n. split; auto. now apply P_InterestD.readNNIBlock_iff.
    - intros (n & H & ->). apply P_InterestD.readNNIBlock_iff in H. now rewrite H. }
  destruct f; try discriminate SF; cbn [lf_kind field_value]; assumption.
Qed.
Print Assumptions C27_read.
Example C27_read_ex : structured FSequence = false /\ field_value FSequence (repeat (nb 1) 8) (VNum 72340172838076673) /\
  (forall v, ~ field_value FSequence [nb 1] v) /\ (exists p', lp_decode (mkBlock tLpPacket (tlv_enc 81 [nb 1])) lp_default = (p', None) /\ lp_get FSequence 0 p' = Err ETlv).
Proof.
  split; [reflexivity|]. split; [split; reflexivity|]. split; [intros v [H _]; vm_compute in H; discriminate H|]. eexists. split; vm_compute; reflexivity.
Qed.
Example C27_ex : (exists p', lp_set FNack (VEnum 100) ex_lp = (p', None)) /\ lv_readable FNack (VEnum 100) /\ (exists p', lp_add FAck (VNum 3) ex_lp = (p', None)) /\
  lv_readable FAck (VNum 3) /\ (exists p', lp_remove FAck 1 ex_lp = (p', None)) /\ (0 < lp_count FNack ex_lp)%nat.
Proof.
  split; [eexists; vm_compute; reflexivity|]. split; [split; cbn; lia|]. split; [eexists; vm_compute; reflexivity|]. split; [split; cbn; auto; unfold two64; lia|].
  split; [eexists; vm_compute; reflexivity|]. vm_compute. auto.
Qed.
(* Values that can be set but not read back: an empty fragment, a CachePolicy with an unknown policy, a negative Nack reason. *)
Theorem C27_set_refuted : exists p1 p2 p3,
  lp_set FFragment (VRange []) lp_default = (p1, None) /\ lp_get FFragment 0 p1 = Err ETlv /\
  lp_set FCachePolicy (VEnum 2) lp_default = (p2, None) /\ lp_get FCachePolicy 0 p2 = Err ETlv /\
  lp_set FNack (VEnum (-1)) lp_default = (p3, None) /\ lp_get FNack 0 p3 = Err ETlv.
Proof.
  do 3 eexists. split; [vm_compute; reflexivity|]. split; [vm_compute; reflexivity|]. split; [vm_compute; reflexivity|]. split; [vm_compute; reflexivity|].
  split; vm_compute; reflexivity.
Qed.
Print Assumptions C27_set_refuted.

(* ---- C28 ---- *)
(* an LpPacket is accepted exactly if its value is a sequence of elements in the required order, each known or ignorable; the packet
   then has exactly these fields; otherwise a tlv::Error is thrown and the packet keeps its contents *)
Theorem C28_accepts : forall w p, blockFromWire (e_wire w) = Ok w -> e_type w = tLpPacket ->
  (forall p', lp_decode w p = (p', None) -> is_tlv_seq (lp_fields p') (e_val w) /\ lp_legal (map fst (lp_fields p'))) /\
  (forall l, is_tlv_seq l (e_val w) -> lp_legal (map fst l) -> exists p', lp_decode w p = (p', None) /\ lp_fields p' = l) /\
  (forall p' e, lp_decode w p = (p', Some e) -> p' = p /\ e = ETlv).
Proof. intros w p W. apply blockFromWire_inv in W as [W _]. now apply decode_iff. Qed.
Print Assumptions C28_accepts.
(* ignored: without the unknown fields the packet is accepted as well, and every known field reads the same *)
Theorem C28_ignores : forall w w2 p p' l, blockFromWire (e_wire w) = Ok w -> e_type w = tLpPacket -> blockFromWire (e_wire w2) = Ok w2 -> e_type w2 = tLpPacket ->
  lp_decode w p = (p', None) ->
  l = filter (fun x => existsb (N.eqb (fst x)) [80; 81; 82; 83; 98; 800; 812; 816; 820; 832; 836; 840; 844; 848]) (lp_fields p') -> is_tlv_seq l (e_val w2) ->
  exists p2, lp_decode w2 p = (p2, None) /\
    forall f, lp_count f p2 = lp_count f p' /\ lp_list f p2 = lp_list f p' /\ forall i, lp_get f i p2 = lp_get f i p'.
Proof.
  intros w w2 p p' l W T W2 T2 D -> Sq. apply blockFromWire_inv in W as [W _]. apply blockFromWire_inv in W2 as [W2 _].
  destruct (decode_iff w p W T) as (A & _ & _). destruct (A p' D) as [_ Lg]. destruct (decode_iff w2 p W2 T2) as (_ & A2 & _).
  edestruct A2 as (p2 & D2 & F2); [exact Sq| |].
  { apply (known_filter_legal (fun t => existsb (N.eqb t) [80; 81; 82; 83; 98; 800; 812; 816; 820; 832; 836; 840; 844; 848])) in Lg.
    rewrite <- (map_id (map fst (filter _ _))). clear - Lg.
    replace (map id (map fst (filter _ (lp_fields p')))) with (filter (fun t => existsb (N.eqb t) [80; 81; 82; 83; 98; 800; 812; 816; 820; 832; 836; 840; 844; 848]) (map fst (lp_fields p'))); [exact Lg|].
    rewrite map_id. induction (lp_fields p') as [|x m IH]; auto. cbn [map filter]. destruct (existsb _ _); cbn [map]; rewrite IH; auto.
    - clear - Lg. apply legal_iff in Lg. cbn [map filter] in Lg. destruct (existsb _ _) in Lg; [|apply legal_iff; exact Lg]. destruct Lg as [F S0]. apply Forall_cons_iff in F as [_ F]. apply StronglySorted_inv in S0 as [S0 _]. apply legal_iff. split; auto.
    - clear - Lg. apply legal_iff in Lg. cbn [map filter] in Lg. destruct (existsb _ _) in Lg; [|apply legal_iff; exact Lg]. destruct Lg as [F S0]. apply Forall_cons_iff in F as [_ F]. apply StronglySorted_inv in S0 as [S0 _]. apply legal_iff. split; auto. }
  exists p2. split; auto. intro f. destruct (ignored_spec w w2 p p' p2 W T W2 T2 D D2 F2 f) as (X & _ & Y & Z). auto.
Qed.
Print Assumptions C28_ignores.
Theorem C28_bare : forall w p, e_type w = tInterest \/ e_type w = tData -> nlen (e_wire w) < 2 ^ 62 ->
  exists p', lp_decode w p = (p', None) /\ lp_fields p' = [(80, e_wire w)].
Proof. exact decode_bare. Qed.
Print Assumptions C28_bare.
Theorem C28_other : forall w p, e_type w <> tInterest -> e_type w <> tData -> e_type w <> tLpPacket -> lp_decode w p = (p, Some ETlv).
Proof. exact decode_other. Qed.
Print Assumptions C28_other.
Definition ex_w28 : elem := mkBlock tLpPacket (tlv_enc 81 (repeat (nb 1) 8) ++ tlv_enc 808 (str "?") ++ tlv_enc 832 (str "!") ++ tlv_enc 80 ex_frag).
Example C28_ex : blockFromWire (e_wire ex_w28) = Ok ex_w28 /\ (exists p', lp_decode ex_w28 lp_default = (p', None) /\ map fst (lp_fields p') = [81; 808; 832; 80]) /\
  lp_ignorable 808 /\ ~ lp_ignorable 810 /\ ~ lp_ignorable 100 /\ snd (lp_decode (mkBlock tLpPacket (tlv_enc 810 (str "?"))) lp_default) = Some ETlv /\
  snd (lp_decode (mkBlock tLpPacket (tlv_enc 80 ex_frag ++ tlv_enc 832 (str "!"))) lp_default) = Some ETlv.
Proof.
  split; [vm_compute; reflexivity|]. split; [eexists; split; vm_compute; reflexivity|]. split; [split; [intro H; cbn in H; repeat destruct H as [H|H]; try discriminate H; destruct H|split; [lia|reflexivity]]|].
  split; [intros (_ & _ & H); discriminate H|]. split; [intros (_ & H & _); lia|]. split; vm_compute; reflexivity.
Qed.

(* ---- C29 ---- *)
Theorem C29_nack_partial : forall z x, (0 <= z < 2 ^ 31)%Z -> nack_encode z = Ok x -> nack_decode x = Ok z /\
  (z = 50 \/ z = 100 \/ z = 150 -> nack_getReason z = z)%Z /\ (~ (z = 50 \/ z = 100 \/ z = 150) -> nack_getReason z = 0)%Z.
Proof.
  intros z x H E. split; [now apply nack_rt|]. unfold nack_getReason. split; intro D.
  - destruct D as [-> |[-> | ->]]; reflexivity.
  - destruct (Z.eqb_spec z 50), (Z.eqb_spec z 100), (Z.eqb_spec z 150); cbn; auto; tauto.
Qed.
Print Assumptions C29_nack_partial.
(* a Nack without a reason, and one whose first element is the reason: any number up to 2^31-1 that is not a known reason reads as None *)
Theorem C29_nack_unknown_partial : forall e x t r v, e_type e = 800 -> parseValue (e_val e) = Ok (x :: t) -> e_type x = tNackReason -> readNNIBlock x = Ok r -> r < 2 ^ 31 ->
  nack_decode e = Ok v -> v = Z.of_N r /\ (r <> 50 -> r <> 100 -> r <> 150 -> nack_getReason v = 0%Z).
Proof.
  intros e x t r v T P X R L D. unfold nack_decode in D. rewrite T, P in D. cbn [N.eqb Pos.eqb negb bind] in D. rewrite X, N.eqb_refl in D. unfold readInt, readNNIBlockAs in D. rewrite R in D.
  cbn [bind] in D. destruct (2 ^ 31 <=? r) eqn:E; [lia|]. cbn in D. injection D as <-. split; auto. intros. unfold nack_getReason.
  destruct (Z.eqb_spec (Z.of_N r) 50), (Z.eqb_spec (Z.of_N r) 100), (Z.eqb_spec (Z.of_N r) 150); cbn; auto; lia.
Qed.
Print Assumptions C29_nack_unknown_partial.
(* Unknown reasons of 2^31 and more do not read as None: decoding throws. *)
Definition ex_nack_big : elem := mkBlock 800 (tlv_nni tNackReason (2 ^ 31)).
Theorem C29_nack_unknown_refuted : blockFromWire (e_wire ex_nack_big) = Ok ex_nack_big /\ nack_decode ex_nack_big = Err ETlv.
Proof. split; vm_compute; reflexivity. Qed.
Print Assumptions C29_nack_unknown_refuted.
Theorem C29_nack_empty : forall e, e_type e = 800 -> e_val e = [] -> nack_decode e = Ok 0%Z.
Proof. intros e T V. unfold nack_decode. rewrite T, V. reflexivity. Qed.
Print Assumptions C29_nack_empty.
Theorem C29_cache_policy : (forall x, cp_encode 1 = Ok x -> cp_decode x = Ok 1%Z) /\ cp_encode 0 = Err ETlv /\ (exists x, cp_encode 1 = Ok x) /\
  (forall e z, cp_decode e = Ok z -> z = 1%Z).
Proof.
  splits; [exact cp_rt|reflexivity|eexists; vm_compute; reflexivity|]. intros e z H. unfold cp_decode in H. destruct (negb _); [discriminate|].
  destruct (parseValue (e_val e)) as [[|x l]|]; cbn in H; try discriminate. destruct (_ =? _); [|discriminate]. destruct (readInt x) as [y|]; cbn in H; [|discriminate].
  unfold cp_getPolicy in H. destruct (Z.eqb_spec y 1); cbn in H; [|discriminate]. subst y. cbn in H. congruence.
Qed.
Print Assumptions C29_cache_policy.
(* a PitToken of 1 to 32 octets is set and read back; other lengths are rejected both ways *)
Theorem C29_pit_token : forall p p' b, lp_reach p ->
  (pt_toField b = Ok b <-> 1 <= nlen b <= 32) /\ (pt_ofField b = Ok b <-> 1 <= nlen b <= 32) /\ (~ 1 <= nlen b <= 32 -> pt_toField b = Err ETlv /\ pt_ofField b = Err ETlv) /\
  (1 <= nlen b <= 32 -> lp_set FPitToken (VRange b) p = (p', None) -> lp_get FPitToken 0 p' = Ok (VRange b)).
Proof.
  intros p p' b R. unfold pt_toField, pt_ofField, pt_valid.
  destruct ((nlen b <? 1) || (32 <? nlen b)) eqn:E; cbn [negb]; (split; [split; intro H; [try discriminate H; lia|try reflexivity; exfalso; lia]|]); (split; [split; intro H; [try discriminate H; lia|try reflexivity; exfalso; lia]|]);
    (split; [intro; try lia; auto|]); intros L H; eapply C27_set; eauto; (split; [exact I|]); intro; subst b; cbn in L; lia.
Qed.
Print Assumptions C29_pit_token.
(* severity: a strict weak order, where None (0) is above everything else *)
Theorem C29_severity : (forall x, isLessSevere x x = false) /\
  (forall x y z, isLessSevere x y = true -> isLessSevere y z = true -> isLessSevere x z = true) /\
  (forall x y z, isLessSevere x z = true -> isLessSevere x y = true \/ isLessSevere y z = true) /\
  (forall x, x <> 0%Z -> isLessSevere x 0 = true) /\ (forall x, isLessSevere 0 x = false) /\
  isLessSevere 50 100 = true /\ isLessSevere 100 150 = true.
Proof.
  unfold isLessSevere. splits; try reflexivity.
  - intro x. destruct (x =? 0)%Z; auto. apply Z.ltb_irrefl.
  - intros x y z. destruct (Z.eqb_spec x 0), (Z.eqb_spec y 0), (Z.eqb_spec z 0); try discriminate; auto. lia.
  - intros x y z. destruct (Z.eqb_spec x 0), (Z.eqb_spec y 0), (Z.eqb_spec z 0); try discriminate; auto. lia.
  - intros x N. destruct (Z.eqb_spec x 0); [lia|reflexivity].
Qed.
Print Assumptions C29_severity.
Example C29_ex : (exists x, nack_encode 100 = Ok x) /\ nack_decode (mkBlock 800 (tlv_nni tNackReason 77)) = Ok 77%Z /\ 1 <= nlen (str "tok") <= 32.
Proof. split; [eexists; vm_compute; reflexivity|]. split; [vm_compute; reflexivity|]. vm_compute. split; discriminate. Qed.
