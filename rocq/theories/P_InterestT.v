(* Interest: rejection, evolvability, round trip, histories. *)
From Coq Require Import Lia ZifyBool ZifyNat ZifyN.
From Verif Require Import Base BaseLemmas M_Tlv P_Tlv S_Tlv P_Block M_Str M_Name S_Name P_Name P_NameUri M_Packet S_Packet P_Packet P_Data P_DataT.
From Verif Require Import M_Interest S_Interest P_Interest P_InterestD.

Lemma means_loop : forall e i, in_means e i <-> exists n es,
  e_type e = 5 /\ parseValue (e_val e) = Ok (n :: es) /\ nm_decode n = Ok (i_name i) /\ n_comps (i_name i) <> [] /\
  (length (digests (nkey (i_name i))) <= 1)%nat /\
  in_loop es 1 (mkInt (i_name i) false false [] None DEFAULT_LIFETIME None [] (Some e)) = (i, None).
Proof.
  intros e i. split.
  - intros (n & es & cbp & mbf & fh & nonce & life & hops & ap & post & T & P & Lay & Dn & Nc & D1 & E2 & E3 & E4 & E5 & E6 & E7 & E8 & E9).
    exists n, es. splits; auto. apply loop_iff. exists cbp, mbf, fh, nonce, life, hops, ap, post. splits; auto.
  - intros (n & es & T & P & Dn & Nc & D1 & Lp).
    apply loop_iff in Lp as (cbp & mbf & fh & nonce & life & hops & ap & post & Lay & E1 & E2 & E3 & E4 & E5 & E6 & E7 & E8 & E9).
    exists n, es, cbp, mbf, fh, nonce, life, hops, ap, post. splits; auto.
Qed.

Lemma map_app_split : forall A B (f : A -> B) l a x b, map f l = a ++ x :: b ->
  exists l1 y l2, l = l1 ++ y :: l2 /\ map f l1 = a /\ f y = x /\ map f l2 = b.
Proof.
  induction l as [|z l IH]; intros a x b H; destruct a as [|w a]; try discriminate; injection H as H1 H2.
  - exists [], z, l. auto.
  - apply IH in H2 as (l1 & y & l2 & -> & <- & <- & <-). exists (z :: l1), y, l2. subst. auto.
Qed.
Lemma map_cons_split : forall A B (f : A -> B) l x b, map f l = x :: b -> exists y l2, l = y :: l2 /\ f y = x /\ map f l2 = b.
Proof. intros A B f [|y l] x b H; [discriminate|]. injection H as <- <-. eauto. Qed.

Section WithSha.
Variable sha256 : bytes -> bytes.
Notation in_decode := (in_decode sha256).

Lemma in_rejects : forall check e i l, is_tlv_seq l (e_val e) -> in_malformed l -> snd (in_decode check e i) <> None.
Proof.
  intros check e i l Hl M H. destruct (in_decode check e i) as [i' x] eqn:D. cbn in H. subst x.
  apply in_decode_iff in D as [D _]. apply means_loop in D as (n & es & T & P & Dn & Nc & _ & Lp).
  assert (K : l = map ekey (n :: es)) by (eapply is_tlv_seq_unique; [exact Hl|now apply parse_keys]).
  assert (Tn : e_type n = 7) by (apply nm_decode_keys in Dn; apply Dn).
  subst l. cbn [map] in M.
  remember (ekey n :: map ekey es) as l eqn:El.
  destruct M as [|t v l T7|l|k a x b y c Rx Ry Cy Le|k a x b R C|k a t v b Tf NE|k a v b NE|k a v b NE].
  - discriminate.
  - injection El as E1 E2 E3. congruence.
  - injection El as E1 E2 E3. apply nm_decode_iff in Dn as (_ & cs & Pn & Dn). rewrite <- E2 in Pn.
    cbn in Pn. injection Pn as <-. rewrite Dn in Nc. now elim Nc.
  - apply (f_equal (@tl _)) in El. cbn [tl] in El. symmetry in El.
    apply map_app_split in El as (l1 & ex & l2 & -> & _ & Kx & El).
    apply map_app_split in El as (l3 & ey & l4 & -> & _ & Ky & _). subst x y. cbn [ekey fst] in *.
    apply loop_elem in Lp as (la & lb & i1 & i2 & _ & _ & L1 & _ & Lp & _).
    apply loop_elem in Lp as (lc & ld & i3 & i4 & L2 & _ & _ & _ & _ & X & _). destruct (X Ry Cy) as [X1 _]. lia.
  - apply (f_equal (@tl _)) in El. cbn [tl] in El. symmetry in El.
    apply map_app_split in El as (l1 & ex & l2 & -> & _ & Kx & _). subst x. cbn [ekey fst] in *.
    apply loop_elem in Lp as (la & lb & i1 & i2 & _ & _ & _ & _ & _ & _ & X). now apply X in R.
  - apply (f_equal (@tl _)) in El. cbn [tl] in El. symmetry in El.
    apply map_app_split in El as (l1 & ex & l2 & -> & _ & Kx & _).
    assert (Tx : e_type ex = t /\ e_val ex = v) by (unfold ekey in Kx; split; congruence). destruct Tx as [Tx Vx].
    apply loop_elem in Lp as (la & lb & i1 & i2 & _ & _ & _ & _ & _ & X & _).
    destruct X as [_ (i3 & A)].
    + unfold recI. rewrite Tx. destruct Tf; subst t; reflexivity.
    + rewrite Tx. destruct Tf; subst t; [right; reflexivity|left; lia].
    + unfold app_field in A. destruct i1. rewrite Tx, Vx in A.
      destruct (N.eqb_spec (nlen v) 0) as [Z|Z]; [apply nlen_0 in Z; congruence|]. destruct Tf; subst t; discriminate.
  - apply (f_equal (@tl _)) in El. cbn [tl] in El. symmetry in El.
    apply map_app_split in El as (l1 & ex & l2 & -> & _ & Kx & _).
    assert (Tx : e_type ex = 10 /\ e_val ex = v) by (unfold ekey in Kx; split; congruence). destruct Tx as [Tx Vx].
    apply loop_elem in Lp as (la & lb & i1 & i2 & _ & _ & _ & _ & _ & X & _).
    destruct X as [_ (i3 & A)].
    + unfold recI. now rewrite Tx.
    + rewrite Tx. left; lia.
    + unfold app_field in A. destruct i1. rewrite Tx, Vx in A. cbn [N.eqb Pos.eqb] in A.
      destruct (N.eqb_spec (nlen v) 4) as [Z|Z]; [congruence|discriminate].
  - apply (f_equal (@tl _)) in El. cbn [tl] in El. symmetry in El.
    apply map_app_split in El as (l1 & ex & l2 & -> & _ & Kx & _).
    assert (Tx : e_type ex = 12 /\ e_val ex = v) by (unfold ekey in Kx; split; congruence). destruct Tx as [Tx Vx].
    apply loop_elem in Lp as (la & lb & i1 & i2 & _ & _ & _ & _ & _ & X & _).
    destruct X as [_ (i3 & A)].
    + unfold recI. now rewrite Tx.
    + rewrite Tx. left; lia.
    + unfold app_field in A. destruct i1. rewrite Tx in A. cbn [N.eqb Pos.eqb] in A.
      destruct (readNNIBlock ex) as [m|] eqn:R; [|discriminate]. apply readNNIBlock_iff in R. rewrite Vx in R. now apply NE in R.
Qed.

Lemma loop_insert : forall a x b last i i', recI x = false -> ~ critical (e_type x) ->
  Forall (fun e => e_type e <> 36) a -> i_params i = [] ->
  (in_loop (a ++ x :: b) last i = (i', None) <-> in_loop (a ++ b) last i = (i', None)).
Proof.
  induction a as [|y a IH]; intros x b last i i' R C F P; cbn [app].
  - rewrite loop_cons. unfold in_hasParams. rewrite P.
    split; [intros [(? & _)|[(T & _)|(_ & _ & H)]]; auto; try congruence|auto].
    exfalso. unfold recI, in_recognised in R. destruct T as [T|T]; rewrite T in R; discriminate R.
  - apply Forall_cons_iff in F as [Fy F]. rewrite !loop_cons. unfold in_hasParams. rewrite P.
    split.
    + intros [(Ry & L & i1 & A & H)|[(T & L & H)|(Ry & Cy & H)]].
      * left. splits; auto. exists i1. split; auto. apply IH in H; auto.
        rewrite (app_params _ _ _ A Fy); auto. unfold recI, in_recognised in Ry. lia.
      * right; left. splits; auto. apply IH in H; auto.
      * right; right. splits; auto. apply IH in H; auto.
    + intros [(Ry & L & i1 & A & H)|[(T & L & H)|(Ry & Cy & H)]].
      * left. splits; auto. exists i1. split; auto. apply IH; auto.
        rewrite (app_params _ _ _ A Fy); auto. unfold recI, in_recognised in Ry. lia.
      * right; left. splits; auto. apply IH; auto.
      * right; right. splits; auto. apply IH; auto.
Qed.

(* the wire is only carried along *)
Lemma loop_setW : forall es last i w, in_loop es last (in_setW w i) = (in_setW w (fst (in_loop es last i)), snd (in_loop es last i)).
Proof.
  induction es as [|e es IH]; intros last i w; [reflexivity|].
  destruct i as [n cbp mbf fh nonce life hop par w0]. cbn [in_loop in_setW i_name i_cbp i_mbf i_fh i_nonce i_life i_hop i_params i_wire].
  change (in_hasParams (mkInt n cbp mbf fh nonce life hop par w)) with (in_hasParams (mkInt n cbp mbf fh nonce life hop par w0)).
  pose proof (fun l c m f no li h p => IH l (mkInt n c m f no li h p w0) w) as Q.
  cbn [in_setW i_name i_cbp i_mbf i_fh i_nonce i_life i_hop i_params i_wire] in Q.
  destruct (e_type e =? tCanBePrefix); [destruct (2 <=? last); [reflexivity|destruct (negb _); [reflexivity|apply Q]]|].
  destruct (e_type e =? tMustBeFresh); [destruct (3 <=? last); [reflexivity|destruct (negb _); [reflexivity|apply Q]]|].
  destruct (e_type e =? tForwardingHint); [destruct (4 <=? last); [reflexivity|destruct (bind _ _); [apply Q|reflexivity]]|].
  destruct (e_type e =? tNonce); [destruct (5 <=? last); [reflexivity|destruct (negb _); [reflexivity|apply Q]]|].
  destruct (e_type e =? tInterestLifetime); [destruct (6 <=? last); [reflexivity|destruct (readNNIBlock e); [apply Q|reflexivity]]|].
  destruct (e_type e =? tHopLimit); [destruct (7 <=? last); [apply Q|destruct (e_val e) as [|? [|]]; [reflexivity|apply Q|reflexivity]]|].
  destruct (e_type e =? tApplicationParameters); [destruct (8 <=? last); apply Q|].
  destruct (isCriticalType (e_type e)); [reflexivity|]. destruct (in_hasParams _); apply Q.
Qed.

Lemma in_reads_iff : forall check w v, in_reads sha256 check w = Some v <->
  exists i, in_means (mkBlock 5 w) i /\ (check = true -> digest_ok sha256 (nkey (i_name i)) (i_params i)) /\ v = in_fields i.
Proof.
  intros check w v. unfold in_reads. change tInterest with 5. split.
  - destruct (in_decode check (mkBlock 5 w) in_default) as [i [x|]] eqn:D; [discriminate|]. intros [= <-].
    apply in_decode_iff in D as [D1 D2]. eauto.
  - intros (i & D1 & D2 & ->). assert (D : in_decode check (mkBlock 5 w) in_default = (i, None)) by (apply in_decode_iff; auto).
    now rewrite D.
Qed.
Lemma means_rewire : forall w w' i, 
  (forall n es, parseValue w = Ok (n :: es) -> exists es', parseValue w' = Ok (n :: es') /\
     forall j i', i_params j = [] -> in_loop es 1 j = (i', None) -> in_loop es' 1 j = (i', None)) ->
  in_means (mkBlock 5 w) i -> in_means (mkBlock 5 w') (in_setW (Some (mkBlock 5 w')) i).
Proof.
  intros w w' i Q M. apply means_loop in M as (n & es & _ & P & Dn & Nc & D1 & Lp). cbn [e_val mkBlock] in P.
  apply Q in P as (es' & P' & Q'). apply means_loop. exists n, es'. cbn [e_type e_val mkBlock in_setW i_name]. splits; auto.
  apply Q' in Lp; auto.
  pose proof (loop_setW es' 1 (mkInt (i_name i) false false [] None DEFAULT_LIFETIME None [] (Some (mkBlock 5 w))) (Some (mkBlock 5 w'))) as S1.
  rewrite Lp in S1. exact S1.
Qed.

Lemma in_insert : forall check l1 w1 l2 w2 t v x, l1 <> [] -> ~ In 36 (map fst l1) -> is_tlv_seq l1 w1 -> is_tlv_seq l2 w2 ->
  is_tlv t v x -> in_recognised t = false -> ~ critical t ->
  in_reads sha256 check (w1 ++ x ++ w2) = in_reads sha256 check (w1 ++ w2).
Proof.
  intros check l1 w1 l2 w2 t v x NE N36 H1 H2 Hx R C.
  apply seq_parse in H1 as (es1 & P1 & K1). apply seq_parse in H2 as (es2 & P2 & K2).
  apply is_tlv_elem in Hx as (ex & Wx & Tx & Vx & Ex).
  assert (Px : parseValue x = Ok [ex]).
  { apply parseValue_ok_iff. cbn. rewrite app_nil_r. auto. }
  pose proof (parse_app _ _ _ _ P1 P2) as Pa. pose proof (parse_app _ _ _ _ P1 (parse_app _ _ _ _ Px P2)) as Pb.
  destruct es1 as [|n es1]; [subst l1; now elim NE|]. cbn [app] in Pa, Pb.
  assert (F36 : Forall (fun e => e_type e <> 36) es1).
  { apply Forall_forall. intros y Hy E. apply N36. subst l1. rewrite map_map. cbn [map]. right.
    apply in_map_iff. exists y. split; auto. }
  assert (Rx : recI ex = false) by (unfold recI; now rewrite Tx). rewrite <- Tx in C.
  apply option_ext. intro f. rewrite !in_reads_iff. split; intros (i & M & D & ->).
  - eexists. split; [eapply means_rewire; [|exact M]|auto].
    intros n' es' P. rewrite P in Pb. injection Pb as -> ->. rewrite Pa. eexists. split; [reflexivity|].
    intros j i' Pj Lp. apply loop_insert in Lp; auto.
  - eexists. split; [eapply means_rewire; [|exact M]|auto].
    intros n' es' P. rewrite P in Pa. injection Pa as -> ->. rewrite Pb. eexists. split; [reflexivity|].
    intros j i' Pj Lp. apply loop_insert; auto.
Qed.

(* ---- encoding ---- *)
Definition set_nonce (x : bytes) (i : interest) : interest :=
  mkInt (i_name i) (i_cbp i) (i_mbf i) (i_fh i) (Some x) (i_life i) (i_hop i) (i_params i) None.

Lemma hint_octets : forall l, Forall (fun n => Forall ctype_ok (n_comps n)) l -> nlen (concat (map nm_octets l)) < two64 ->
  exists es ns, Forall elem_wf es /\ concat (map e_wire es) = concat (map nm_octets l) /\ hint_reads es ns /\ map nkey ns = map nkey l.
Proof.
  induction l as [|n l IH]; intros F L; cbn [map concat] in *.
  - exists [], []. splits; auto. constructor.
  - apply Forall_cons_iff in F as [Fn F]. rewrite nlen_app in L.
    destruct IH as (es & ns & W & E & R & K); auto; [lia|].
    destruct (nm_decode_octets n Fn) as (e & n' & We & Te & Ee & De & Ke); [lia|].
    exists (e :: es), (n' :: ns). cbn [map concat]. splits; auto; [congruence|now constructor|congruence].
Qed.

Lemma filter_true : forall A (f : A -> bool) l, Forall (fun x => f x = true) l -> filter f l = l.
Proof. induction 1 as [|x l H F IH]; cbn; auto. now rewrite H, IH. Qed.

Lemma params_means : forall p, params_ok p -> Forall elem_wf p /\
  exists ap post, p = opt_list ap ++ post /\ (forall e, ap = Some e -> e_type e = 36) /\ (ap = None -> post = []) /\
    Forall (fun e => ~ critical (e_type e)) post /\
    filter (fun x => negb ((e_type x =? 34) || (e_type x =? 36))) post = post.
Proof.
  intros [|ap post] H.
  - split; auto. exists None, []. splits; auto; discriminate.
  - destruct H as (W & T & F). split.
    + constructor; [now apply elem_wf_iff|]. eapply Forall_impl; [|exact F]. intros e [We _]. now apply elem_wf_iff.
    + exists (Some ap), post. splits; auto; try discriminate.
      * intros e [= <-]. auto.
      * eapply Forall_impl; [|exact F]. now intros e (_ & ? & _).
      * apply filter_true. eapply Forall_impl; [|exact F]. cbn. intros e (_ & _ & ? & ?). lia.
Qed.

Lemma encoded_means : forall i x e, in_ok i -> nlen x = 4 -> n_comps (i_name i) <> [] ->
  (length (digests (nkey (i_name i))) <= 1)%nat -> nlen (in_value x i) < two64 -> e_type e = 5 -> e_val e = in_value x i ->
  exists i', in_means e i' /\ in_fields i' = in_fields (set_nonce x i) /\
    exists n pre, parseValue (e_val e) = Ok (n :: pre ++ i_params i) /\ e_wire n = nm_octets (i_name i) /\
      Forall (fun y => e_type y <> 36) (n :: pre).
Proof.
  intros i x e (On & Of & Oo & Ol & Op) Lx Nc D1 L Te Ve.
  assert (Lens : nlen (nm_octets (i_name i)) < two64 /\
    (i_fh i <> [] -> nlen (concat (map nm_octets (i_fh i))) < two64)).
  { unfold in_value in L. rewrite !nlen_app in L. split; [lia|]. intro NE. destruct (i_fh i); [congruence|]. rewrite (tlv_enc_len 30) in L. lia. }
  destruct Lens as [Ln Lf].
  destruct (nm_decode_octets (i_name i) On Ln) as (n & nm & Wn & Tn & Hn & Dn & Kn).
  set (cbp := if i_cbp i then Some (mkBlock 33 []) else None).
  set (mbf := if i_mbf i then Some (mkBlock 18 []) else None).
  set (fh := match i_fh i with [] => None | l => Some (mkBlock 30 (concat (map nm_octets l))) end).
  set (life := if i_life i =? DEFAULT_LIFETIME then None else Some (mkNNIBlock 12 (i_life i))).
  set (hops := match i_hop i with Some h => [mkBlock 34 [h]] | None => [] end).
  destruct (params_means _ Op) as (Wp & ap & post & Ep & Tap & Nap & Cp & Fp).
  set (pre := opt_list cbp ++ opt_list mbf ++ opt_list fh ++ opt_list (Some (mkBlock 10 x)) ++ opt_list life ++ hops).
  assert (HF : exists ns, map nkey ns = map nkey (i_fh i) /\
    match fh with None => ns = [] | Some y => exists sub, parseValue (e_val y) = Ok sub /\ hint_reads sub ns end).
  { unfold fh. destruct (i_fh i) as [|n0 l0] eqn:Fh; [exists []; auto|].
    destruct (hint_octets (n0 :: l0) Of) as (es & ns & W & E & R & K); [apply Lf; discriminate|].
    exists ns. split; auto. exists es. split; auto. apply parseValue_ok_iff. split; auto. }
  destruct HF as (ns & Kf & HF).
  assert (Wpre : Forall elem_wf pre).
  { unfold pre. rewrite !Forall_app. splits.
    - unfold cbp. destruct (i_cbp i); constructor; auto. apply mkBlock_wf; reflexivity.
    - unfold mbf. destruct (i_mbf i); constructor; auto. apply mkBlock_wf; reflexivity.
    - unfold fh. destruct (i_fh i) as [|n0 l0]; constructor; auto. apply mkBlock_wf; try reflexivity. apply Lf. discriminate.
    - constructor; auto. apply mkBlock_wf; try reflexivity. rewrite Lx. reflexivity.
    - unfold life. destruct (i_life i =? DEFAULT_LIFETIME); constructor; auto. apply mkNNI_wf; reflexivity.
    - unfold hops. destruct (i_hop i); constructor; auto. apply mkBlock_wf; reflexivity. }
  assert (Hpre : in_value x i = concat (map e_wire (n :: pre ++ i_params i))).
  { cbn [map concat]. rewrite Hn. unfold in_value. f_equal. unfold pre. rewrite !map_app, !concat_app, <- !app_assoc.
    f_equal; [unfold cbp; destruct (i_cbp i); cbn [opt_list map concat]; rewrite ?app_nil_r, ?mkBlock_wire; reflexivity|].
    f_equal; [unfold mbf; destruct (i_mbf i); cbn [opt_list map concat]; rewrite ?app_nil_r, ?mkBlock_wire; reflexivity|].
    f_equal; [unfold fh; destruct (i_fh i); cbn [opt_list]; [reflexivity|]; rewrite (map_cons e_wire), (concat_cons (e_wire _)), mkBlock_wire; cbn [map concat]; now rewrite app_nil_r|].
    f_equal; [cbn [opt_list map concat]; rewrite ?app_nil_r, ?mkBlock_wire; reflexivity|].
    f_equal; [unfold life; destruct (i_life i =? DEFAULT_LIFETIME); cbn [opt_list map concat]; rewrite ?app_nil_r, ?mkNNI_wire; reflexivity|].
    f_equal; unfold hops; destruct (i_hop i); cbn [map concat]; rewrite ?app_nil_r, ?mkBlock_wire; reflexivity. }
  assert (P : parseValue (e_val e) = Ok (n :: pre ++ i_params i)).
  { apply parseValue_ok_iff. split; [constructor; auto; apply Forall_app; auto|]. now rewrite Ve. }
  exists (mkInt nm (i_cbp i) (i_mbf i) ns (Some x) (i_life i) (i_hop i) (i_params i) (Some e)).
  assert (Fr : Forall (fun y => in_recognised (e_type y) = true /\ e_type y <> 36) pre).
  { unfold pre, cbp, mbf, fh, life, hops. rewrite !Forall_app. splits; try (constructor; [split; [reflexivity|discriminate]|constructor]).
    - destruct (i_cbp i); repeat constructor. discriminate.
    - destruct (i_mbf i); repeat constructor. discriminate.
    - destruct (i_fh i); repeat constructor. discriminate.
    - destruct (i_life i =? DEFAULT_LIFETIME); repeat constructor. discriminate.
    - destruct (i_hop i); repeat constructor. discriminate. }
  splits; [| |exists n, pre; splits; auto; constructor; [rewrite Tn; discriminate|eapply Forall_impl; [|exact Fr]; now intros y [_ ?]]].
  - exists n, (pre ++ i_params i), cbp, mbf, fh, (Some (mkBlock 10 x)), life, hops, ap, post.
    cbn [i_name i_cbp i_mbf i_fh i_nonce i_life i_hop i_params i_wire].
    splits; auto.
    + constructor; auto.
      * exists pre. split; [now rewrite Ep|].
        split; [apply filter_true; eapply Forall_impl; [|exact Fr]; now intros y [? _]|]. eapply Forall_impl; [|exact Fr]. cbn. intros y [? _]. congruence.
      * unfold cbp. destruct (i_cbp i); [|discriminate]. intros y Hy. injection Hy as <-. auto.
      * unfold mbf. destruct (i_mbf i); [|discriminate]. intros y Hy. injection Hy as <-. auto.
      * unfold fh. destruct (i_fh i); [discriminate|]. intros y Hy. injection Hy as <-. auto.
      * intros y Hy. injection Hy as <-. auto.
      * unfold life. destruct (_ =? _); [discriminate|]. intros y Hy. injection Hy as <-. auto.
      * unfold hops. destruct (i_hop i); constructor; auto.
    + intro Z. apply Nc. unfold nkey in Kn. rewrite Z in Kn. destruct (n_comps (i_name i)); [reflexivity|discriminate].
    + now rewrite Kn.
    + unfold cbp. now destruct (i_cbp i).
    + unfold mbf. now destruct (i_mbf i).
    + unfold life. destruct (N.eqb_spec (i_life i) DEFAULT_LIFETIME) as [E|E]; auto.
      apply (readNNIBlock_iff (mkNNIBlock 12 (i_life i))). now apply readNNIBlock_mk.
    + unfold hops. destruct (i_hop i) as [b|]; auto. exists b. split; reflexivity.
    + rewrite Fp. auto.
  - unfold in_fields, set_nonce. cbn [i_name i_cbp i_mbf i_fh i_nonce i_life i_hop i_params i_wire]. now rewrite Kn, Kf.
Qed.
End WithSha.
