(* Proofs about PrefixAnnouncement. *)
From Coq Require Import Lia ZifyBool ZifyNat ZifyN ZArith.
From Verif Require P_IntPolicy P_ValidityD.
From Verif Require Import Base BaseLemmas M_Tlv P_Tlv S_Tlv P_Block M_Str M_Name S_Name P_Name P_NameUri P_NameOrder M_Packet S_Packet P_Packet P_Data P_DataT P_DataHist
  P_Segmenter P_InterestD M_Validity S_Validity P_Validity M_Special S_Special P_Special P_Special2.
Open Scope N_scope.
Open Scope list_scope.

Lemma prefix3 : forall n a x y z, n_comps n = a ++ [x; y; z] -> nm_size n < 2 ^ 64 -> n_comps (nm_getPrefix (-3) n) = a.
Proof.
  intros n a x y z E L. rewrite nm_getPrefix_slice; [|exact L|unfold nm_size, nlen in *; rewrite E, app_length in *; cbn [length] in *; unfold two64; lia].
  rewrite E. unfold slice_start. rewrite app_length. cbn [length]. change (-3 <? 0)%Z with true. cbv iota.
  match goal with |- firstn ?k _ = _ => replace k with (length a) by lia end. rewrite firstn_app, Nat.sub_diag, firstn_all. cbn [firstn]. apply app_nil_r.
Qed.
Lemma ends_prefix : forall dconv kw n pre, nm_size n < 2 ^ 64 -> ends_with dconv kw (nkey n) pre -> nkey (nm_getPrefix (-3) n) = pre.
Proof.
  intros dconv kw n pre L (v & s & nv & ns & E & _). assert (Ln : (3 <= length (n_comps n))%nat).
  { pose proof (f_equal (@length _) E) as Q. unfold nkey in Q. rewrite map_length, app_length in Q. cbn [length] in Q. lia. }
  destruct (last3 _ (n_comps n) Ln) as (a & x & y & z & E'). unfold nkey. rewrite (prefix3 _ _ _ _ _ E' L). unfold nkey in E. rewrite E', map_app in E.
  apply app_inj_len in E as [E _]; [exact E|]. apply f_equal with (f := @length _) in E. rewrite !app_length in E. cbn [length map] in E. lia.
Qed.
Lemma in_slice : forall A (a b : nat) (l : list A) x, In x (firstn a (skipn b l)) -> In x l.
Proof. intros A a b l x H. rewrite <- (firstn_skipn b l). apply in_or_app. right. rewrite <- (firstn_skipn a (skipn b l)). apply in_or_app. now left. Qed.
Lemma prefix_ok : forall n, Forall ctype_ok (n_comps n) -> Forall ctype_ok (n_comps (nm_getPrefix (-3) n)) /\ (nm_size (nm_getPrefix (-3) n) <= nm_size n).
Proof.
  intros n F. unfold nm_getPrefix. change (-3 <? 0)%Z with true. cbv iota. unfold nm_getSubName, nm_size. cbv zeta. cbn [n_comps]. unfold ntake, ndrop. split.
  - rewrite Forall_forall in *. intros x I. apply F. match goal with H : In x (firstn ?a (skipn ?b ?l)) |- _ => apply (in_slice _ a b l x H) end.
  - unfold nlen. rewrite firstn_length, skipn_length. lia.
Qed.

(* ---- validity elements: only type and value matter for the times ---- *)
Lemma ofBlock_key : forall other x y q, e_type x = e_type y -> e_val x = e_val y -> vp_ofBlock other x = Ok q -> vp_ofBlock other y = Ok (mkVp (vp_nb q) (vp_na q) (Some y)).
Proof.
  intros other x y q T V H. unfold vp_ofBlock, vp_wireDecode in *. rewrite T, V in H. destruct (negb (e_type y =? tValidityPeriod)); [discriminate|].
  destruct (parseValue (e_val y)) as [[|a [|b [|]]]|]; try discriminate.
  destruct (_ || _); [discriminate|]. destruct (_ || _); [discriminate|]. destruct (decodeTimePoint other (e_val a)); [|discriminate]. destruct (decodeTimePoint other (e_val b)); [|discriminate].
  injection H as <-. reflexivity.
Qed.
Lemma ofBlock_wire : forall other x q, vp_ofBlock other x = Ok q -> vp_wire q = Some x.
Proof. intros other x q H. pose proof (ofBlock_key _ x x q eq_refl eq_refl H) as K. rewrite H in K. injection K as K. rewrite K. reflexivity. Qed.
Lemma read_elem : forall other x, elem_wf x -> vp_read other (e_wire x) = vp_ofBlock other x.
Proof. intros other x W. unfold vp_read. rewrite blockFromWire_wf by exact W. reflexivity. Qed.

Lemma exists_critical : forall es, existsb (fun e => negb (e_type e =? tExpirationPeriod) && negb (e_type e =? tValidityPeriod) && isCriticalType (e_type e)) es = false <->
  forall t, In t (map fst (map ekey es)) -> t = 109 \/ t = 253 \/ ~ critical t.
Proof.
  intro es. rewrite map_map. split.
  - intros H t I. apply in_map_iff in I as (x & <- & I). cbn [ekey fst].
    assert (Q : negb (e_type x =? tExpirationPeriod) && negb (e_type x =? tValidityPeriod) && isCriticalType (e_type x) = false).
    { destruct (_ && _) eqn:E; auto. assert (K : existsb (fun e => negb (e_type e =? tExpirationPeriod) && negb (e_type e =? tValidityPeriod) && isCriticalType (e_type e)) es = true) by (apply existsb_exists; exists x; auto). congruence. }
    destruct (N.eqb_spec (e_type x) tExpirationPeriod) as [E|E]; [left; exact E|]. destruct (N.eqb_spec (e_type x) tValidityPeriod) as [E2|E2]; [right; left; exact E2|].
    right. right. intro C. apply isCritical_iff in C. rewrite C in Q. discriminate.
  - intro H. destruct (existsb _ es) eqn:E; auto. apply existsb_exists in E as (x & I & E). apply andb_true_iff in E as [E C]. apply isCritical_iff in C.
    destruct (H (e_type x)) as [T|[T|T]]; [apply in_map_iff; exists x; auto| | |contradiction]; rewrite T in E; discriminate.
Qed.
Lemma as_int64_is : forall n, as_int64 n = (if (n <? 2 ^ 63)%N then Z.of_N n else Z.of_N n - 2 ^ 64)%Z.
Proof. reflexivity. Qed.

Lemma pa_sound : forall dconv other d p, nm_size (d_name d) < 2 ^ 64 -> pa_ofData dconv other d = Ok p -> announces dconv other d (pa_view p) /\ pa_data p = Some d /\
  pa_name p = nm_getPrefix (-3) (d_name d) /\ forall q, pa_valid p = Some q -> exists y, elem_wf y /\ vp_ofBlock other y = Ok q.
Proof.
  intros dconv other d p Ls H. unfold pa_ofData in H. destruct (versioned dconv kw_pa (d_name d)) eqn:V; [|discriminate]. cbn [negb] in H.
  destruct (N.eqb_spec (mi_type (d_meta d)) 5) as [T|]; [|discriminate]. cbn [negb] in H. destruct (nlen (c_val (d_content d)) =? 0); [discriminate|].
  inv_bind H. rename a into es. destruct (find (fun e => e_type e =? tExpirationPeriod) es) as [x|] eqn:F; [|discriminate]. cbn [of_opt bind] in H. inv_bind H. rename a into n.
  destruct (match find (fun e => e_type e =? tValidityPeriod) es with None => Ok None | Some y => let! q := vp_ofBlock other y in Ok (Some q) end) as [vo|] eqn:Fv; cbn [bind] in H; [|discriminate].
  destruct (existsb _ es) eqn:Ex in H; [discriminate|]. apply Ok_inj in H as <-. cbn [pa_data pa_name pa_valid].
  apply versioned_iff in V as (pre & V); [|reflexivity]. pose proof (proj1 (parseValue_ok_iff _ _) E) as [Wf _].
  split; [|split; [reflexivity|split; [reflexivity|]]].
  - unfold announces, pa_view. cbn [pa_name pa_exp pa_valid]. rewrite (ends_prefix _ _ _ _ Ls V). split; [exact V|]. split; [exact T|].
    exists (map ekey es), (e_val x), n. split; [now apply parse_keys|]. split; [now apply find_first in F|]. split; [now apply readNNIBlock_iff in E0|]. split; [apply as_int64_is|].
    split; [|now apply exists_critical].
    destruct (find (fun e => e_type e =? tValidityPeriod) es) as [y|] eqn:Fy.
    + inv_bind Fv. injection Fv as <-. cbn [option_map]. apply find_first in Fy as (Fy & Ty & Iy). exists (e_val y), (e_wire y), a.
      assert (Wy : elem_wf y) by (rewrite Forall_forall in Wf; auto). splits; auto; [|now rewrite read_elem]. apply is_tlv_elem. exists y. auto.
    + injection Fv as <-. cbn [option_map]. now apply find_none_type.
  - intros q ->. destruct (find (fun e => e_type e =? tValidityPeriod) es) as [y|] eqn:Fy; [|discriminate]. inv_bind Fv. injection Fv as ->. apply find_first in Fy as (_ & _ & Iy).
    exists y. split; [rewrite Forall_forall in Wf; auto|exact E1].
Qed.
Lemma pa_complete : forall dconv other d view, nm_size (d_name d) < 2 ^ 64 -> announces dconv other d view -> exists p, pa_ofData dconv other d = Ok p /\ pa_view p = view.
Proof.
  intros dconv other d [[pre z] valid] Ls (V & T & l & v & n & SQ & F & N & Z & Va & C). unfold pa_ofData.
  rewrite (proj2 (versioned_iff dconv kw_pa (d_name d) eq_refl)) by eauto. rewrite T. change (5 =? 5) with true. cbn [negb]. apply seq_parse in SQ as (es & P & <-).
  apply first_find in F as (x & F & Vx & Tx & Ix). destruct (N.eqb_spec (nlen (c_val (d_content d))) 0) as [Q|_].
  { destruct (c_val (d_content d)); [|unfold nlen in Q; cbn in Q; lia]. cbn in P. assert (es = []) by congruence. subst es. destruct Ix. }
  rewrite P. cbn [bind]. change tExpirationPeriod with 109 in *. rewrite F. cbn [of_opt bind]. rewrite <- Vx in N. apply readNNIBlock_iff in N. rewrite N. cbn [bind].
  apply exists_critical in C. change tExpirationPeriod with 109 in C. change tValidityPeriod with 253 in *.
  destruct valid as [[nb na]|].
  - destruct Va as (w & o & q & Fw & Tl & R & <- & <-). apply first_find in Fw as (y & -> & Vy & Ty & _). apply is_tlv_elem in Tl as (y' & Wy & Ty' & Vy' & <-).
    rewrite read_elem in R by exact Wy. rewrite (ofBlock_key other y' y q); [|congruence|congruence|exact R]. cbn [bind]. rewrite C. eexists. split; [reflexivity|].
    unfold pa_view. cbn [pa_name pa_exp pa_valid option_map vp_nb vp_na]. rewrite (ends_prefix _ _ _ _ Ls V). rewrite Z. reflexivity.
  - apply find_none_type in Va. rewrite Va. cbn [bind]. rewrite C. eexists. split; [reflexivity|].
    unfold pa_view. cbn [pa_name pa_exp pa_valid option_map vp_nb vp_na]. rewrite (ends_prefix _ _ _ _ Ls V). rewrite Z. reflexivity.
Qed.
Lemma announces_unique : forall dconv other d a b, nm_size (d_name d) < 2 ^ 64 -> announces dconv other d a -> announces dconv other d b -> a = b.
Proof. intros dconv other d a b L A B. apply pa_complete in A as (p & P & <-); auto. apply pa_complete in B as (q & Q & <-); auto. congruence. Qed.

Lemma varnum_len : forall n a, is_varnum n a -> nlen a <= 9.
Proof. intros n a H. destruct H; rewrite ?nlen_cons; try lia. cbn. lia. Qed.
Lemma tlv_len : forall t v w, is_tlv t v w -> nlen w <= nlen v + 18.
Proof. intros t v w (_ & _ & a & b & A & B & ->). rewrite !nlen_app. apply varnum_len in A, B. lia. Qed.

Section Hist.
Variable sha256 : bytes -> bytes.
Hypothesis sha_len : forall b, nlen (sha256 b) = 32.
Variable conv dconv : convention.
Hypothesis CD : can_decode dconv conv = true.
Variable other : bytes -> res Z.
Hypothesis Ho : honest other.

(* a packet that was received, or signed: it decodes from its wire *)
Definition sealed (d : data) : Prop := exists e, d_wire d = Some e /\ forall d0, da_decode e d0 = (d, None).
Definition pa_inv (p : pann) : Prop :=
  Forall ctype_ok (n_comps (pa_name p)) /\ nlen (n_comps (pa_name p)) + 3 < 2 ^ 64 /\ (0 <= pa_exp p < 2 ^ 63)%Z /\
  (forall q, pa_valid p = Some q -> valid_ok other q) /\
  forall d, pa_data p = Some d -> sealed d /\ nm_size (d_name d) < 2 ^ 64 /\ announces dconv other d (pa_view p).

Lemma new_inv : pa_inv pa_new.
Proof. unfold pa_inv. cbn [pa_new pa_name pa_exp pa_valid pa_data n_comps nm_empty]. splits; try (discriminate || lia || constructor). Qed.
Lemma received_inv : forall e d p, da_decode e da_empty = (d, None) -> pa_ofData dconv other d = Ok p -> (0 <= pa_exp p)%Z -> nm_size (d_name d) + 3 < 2 ^ 64 -> pa_inv p.
Proof.
  intros e d p D H L Ls. assert (Ls' : nm_size (d_name d) < 2 ^ 64) by lia. destruct (pa_sound _ _ _ _ Ls' H) as (A & Dp & Np & Vp). pose proof D as D'.
  apply da_decode_iff in D' as (n & es & mi & c & si & sv & nm & m & s & P & Ed). destruct P as (_ & _ & Dn & _). apply nm_decode_ok in Dn.
  assert (Fn : Forall ctype_ok (n_comps (d_name d))) by (rewrite Ed; exact Dn). destruct (prefix_ok _ Fn) as [P1 P2].
  unfold pa_inv. rewrite Np. split; [exact P1|]. split; [unfold nm_size in *; lia|]. split; [|split].
  - split; [exact L|]. destruct A as (_ & _ & l & v & k & _ & _ & K1 & Z & _). apply P_IntPolicy.nni_lt in K1. rewrite Z. destruct (k <? 2 ^ 63) eqn:Q; lia.
  - intros q E. destruct (Vp q E) as (y & Wy & O). pose proof O as O'. rewrite <- read_elem in O' by exact Wy. pose proof O' as R. apply read_iff in R as (va & vb & e' & _ & _ & _ & R1 & R2 & _).
    split; [eapply reads_second; eauto|]. split; [eapply reads_second; eauto|]. intros w W. rewrite (ofBlock_wire _ _ _ O) in W. injection W as <-. exact O'.
  - intros d' E. rewrite Dp in E. injection E as <-. split; [|split; [lia|exact A]]. exists e. split; [rewrite Ed; reflexivity|]. intro d0. eapply decode_indep, D.
Qed.
Lemma valid_wire : forall q, valid_ok other q -> exists q' e w, vp_wireEncode q = (q', e) /\ valid_ok other q' /\ vp_nb q' = vp_nb q /\ vp_na q' = vp_na q /\
  is_tlv 253 w (e_wire e) /\ nlen (e_wire e) <= 200 /\ exists r, vp_read other (e_wire e) = Ok r /\ vp_nb r = vp_nb q /\ vp_na r = vp_na q.
Proof.
  intros q (A & B & C). unfold vp_wireEncode. destruct (vp_wire q) as [e|] eqn:W.
  - pose proof (C e eq_refl) as R. pose proof R as R'. apply read_iff in R' as (va & vb & e' & (a & b & Ta & Tb & Tc) & La & Lb & _). exists q, e, (a ++ b).
    split; [reflexivity|]. split; [unfold valid_ok; rewrite W; auto|]. splits; auto; [|eauto]. apply tlv_len in Ta, Tb, Tc. rewrite nlen_app in Tc. lia.
  - cbv zeta. destruct (encode_octets q A B) as [_ (a & b & Ta & Tb & Tc)]. pose proof (encode_read other q A B) as R.
    exists (mkVp (vp_nb q) (vp_na q) (Some (vp_encode q))), (vp_encode q), (a ++ b). split; [reflexivity|]. cbn [vp_nb vp_na]. split.
    + unfold valid_ok. cbn [vp_nb vp_na vp_wire]. splits; auto. intros e [= <-]. exact R.
    + pose proof (P_ValidityD.iso_len _ _ (toIso_second _ A)). pose proof (P_ValidityD.iso_len _ _ (toIso_second _ B)). splits; auto; [|eauto]. apply tlv_len in Ta, Tb, Tc. rewrite nlen_app in Tc. lia.
Qed.
Lemma as_uint64_is : forall z, (0 <= z < 2 ^ 63)%Z -> as_uint64 z = Z.to_N z /\ Z.to_N z < 2 ^ 63.
Proof. intros z L. unfold as_uint64. rewrite Z.mod_small by lia. lia. Qed.
Lemma type_fields : forall t d, da_inv sha256 d -> t < 2 ^ 32 -> da_inv sha256 (da_setContentType t d) /\ nkey (d_name (da_setContentType t d)) = nkey (d_name d) /\ mi_type (d_meta (da_setContentType t d)) = t.
Proof.
  intros t d I L. destruct (da_step_inv sha256 sha_len (DSetType t) d _ I L eq_refl) as [I1 F1]. unfold da_fields at 1 in F1. cbn [da_effect] in F1.
  destruct (mi_fields (d_meta d)) as [[[t0 f] fc] ap] eqn:M. cbv zeta beta in F1. unfold da_fields, mi_fields in F1. split; [exact I1|]. split; congruence.
Qed.

Lemma toData_inv : forall signing ver p p' r, pa_inv p -> ver < 2 ^ 64 -> (forall si f, signing = Some (si, f) -> si_ok si) ->
  pa_toData conv signing ver p = (p', Ok r) -> pa_inv p' /\ pa_view p' = pa_view p /\ pa_data p' = Some r /\
  (pa_data p = None -> exists v s, nkey (d_name r) = nkey (pa_name p) ++ [(32, str "PA"); ckey v; ckey s] /\ toKind dconv KVersion v = Ok ver /\ toKind dconv KSegment s = Ok 0).
Proof.
  intros signing ver p p' r I Lv Hs H. pose proof I as (I1 & I2 & I3 & I4 & I5). unfold pa_toData in H. destruct (pa_data p) as [d|] eqn:Dp.
  { injection H as <- <-. split; [exact I|]. split; [reflexivity|]. split; [exact Dp|]. intro Q. discriminate. }
  destruct (fromKind conv KVersion ver) as [v|] eqn:Ev; [|discriminate]. destruct (fromKind conv KSegment 0) as [s|] eqn:Es; [|discriminate].
  set (nm := nm_append s (nm_append v (nm_append kw_pa (pa_name p)))) in *.
  assert (Kn : nkey nm = nkey (pa_name p) ++ [(32, str "PA"); ckey v; ckey s]).
  { unfold nm, nkey, nm_append. cbn [n_comps]. rewrite !map_app, <- !app_assoc. reflexivity. }
  assert (Dn : Forall ctype_ok (n_comps nm)).
  { unfold nm, nm_append. cbn [n_comps]. destruct (fromKind_valid _ _ _ _ Ev) as [_ Q1]. destruct (fromKind_valid _ _ _ _ Es) as [_ Q2]. rewrite !Forall_app.
    split; [split; [split; [exact I1|]|]|]; (constructor; [|constructor]); auto. split; reflexivity. }
  destruct (type_fields 5 _ (da_of_inv sha256 nm Dn) ltac:(lia)) as (J0 & N0 & T0). set (d0 := da_setContentType 5 (da_of nm)) in *. cbn [d_name da_of] in N0.
  set (vw := match pa_valid p with None => (None, []) | Some q => let (q', e) := vp_wireEncode q in (Some q', e_wire e) end) in *.
  assert (VW : exists vo w, vw = (vo, w) /\ (forall q, vo = Some q -> valid_ok other q) /\
    option_map (fun v => (vp_nb v, vp_na v)) vo = option_map (fun v => (vp_nb v, vp_na v)) (pa_valid p) /\ nlen w <= 200 /\
    match pa_valid p with None => w = [] | Some q => exists x rr, is_tlv 253 x w /\ vp_read other w = Ok rr /\ vp_nb rr = vp_nb q /\ vp_na rr = vp_na q end).
  { unfold vw. destruct (pa_valid p) as [q|] eqn:Eq.
    - destruct (valid_wire q (I4 q eq_refl)) as (q' & e & x & -> & V' & Q1 & Q2 & Tl & Ln & rr & R & R1 & R2). exists (Some q'), (e_wire e).
      split; [reflexivity|]. split; [intros ? [= <-]; exact V'|]. cbn [option_map]. split; [congruence|]. split; [exact Ln|]. exists x, rr. auto.
    - exists None, []. split; [reflexivity|]. split; [discriminate|]. split; [reflexivity|]. split; [cbn; lia|reflexivity]. }
  destruct VW as (vo & w & -> & Vo & Vm & Lw & Vv). cbv iota zeta in H.
  destruct (as_uint64_is _ I3) as [U UL]. rewrite U in H. set (ev := mkNNIBlock tExpirationPeriod (Z.to_N (pa_exp p))) in *.
  assert (Tev : is_tlv 109 (encNNI (Z.to_N (pa_exp p))) (e_wire ev)).
  { apply is_tlv_elem. exists ev. splits; auto. apply mkBlock_wf; [reflexivity|reflexivity|]. rewrite encNNI_len. destruct (sizeOfNNI_cases (Z.to_N (pa_exp p))) as [-> | [-> | [-> | ->]]]; reflexivity. }
  assert (Lev : nlen (e_wire ev) <= 100). { apply tlv_len in Tev. rewrite encNNI_len in Tev. destruct (sizeOfNNI_cases (Z.to_N (pa_exp p))) as [Q|[Q|[Q|Q]]]; rewrite Q in Tev; lia. }
  set (c := mkBlock tContent (e_wire ev ++ w)) in *.
  destruct (da_setContentBlock (comp_of_elem c) d0) as [d1 [y|]] eqn:E1; [discriminate|].
  assert (Lc : nlen (e_wire ev ++ w) <= 300) by (rewrite nlen_app; lia).
  apply (block_fields sha256 sha_len) in E1 as (J1 & F1 & C1); auto.
  2: { apply blk_ok_mk; [reflexivity|reflexivity|]. unfold two64. lia. }
  2: { unfold blk_octets. cbn [comp_of_elem c_hdr c_val]. change (nlen (e_wire c) < 2 ^ 64). assert (is_tlv 21 (e_wire ev ++ w) (e_wire c)) as Q.
       { apply is_tlv_elem. exists c. splits; auto. apply mkBlock_wf; [reflexivity|reflexivity|]. unfold two64. lia. } apply tlv_len in Q. lia. }
  destruct signing as [[si g]|]; [|discriminate]. destruct (da_sign g si d1) as [d2 [e|y]] eqn:E2; [|discriminate]. injection H as <- <-.
  apply (sign_fields sha256 sha_len) in E2 as (F2 & W2 & D2 & J2); [|exact J1|now apply (Hs si g)].
  assert (Kd : nkey (d_name d2) = nkey (pa_name p) ++ [(32, str "PA"); ckey v; ckey s]) by (rewrite <- Kn; congruence).
  assert (Pv : pa_view (mkPa (Some d2) (pa_name p) (pa_exp p) vo) = pa_view p) by (unfold pa_view; cbn [pa_name pa_exp pa_valid]; rewrite Vm; reflexivity).
  split; [|split; [exact Pv|split; [reflexivity|]]].
  2: { intros _. exists v, s. split; [exact Kd|]. split; eapply numeric_round_trip; eauto. reflexivity. }
  unfold pa_inv. rewrite Pv. cbn [pa_name pa_exp pa_valid pa_data]. splits; auto; try lia. intros d [= <-].
  split; [exists e; auto|]. split.
  { unfold nm_size. apply f_equal with (f := @length _) in Kd. unfold nkey in Kd. rewrite app_length, !map_length in Kd. cbn [length] in Kd. unfold nlen in *. lia. }
  unfold announces, pa_view. split; [rewrite Kd; exact (ends_app _ _ _ _ _ _ _ CD Lv Ev Es)|]. split; [unfold mi_fields in F1, F2; congruence|].
  assert (Cv : c_val (d_content d2) = e_wire ev ++ w).
  { assert (ckey (d_content d2) = ckey (d_content d1)) as Q by congruence. rewrite C1 in Q. cbn [comp_of_elem c_type] in Q. change (e_type c =? 21) with true in Q. cbv iota in Q.
    unfold ckey in Q. cbn [comp_of_elem c_val] in Q. change (e_val c) with (e_wire ev ++ w) in Q. congruence. }
  rewrite Cv. set (n := Z.to_N (pa_exp p)) in *.
  assert (Nn : is_nni n (encNNI n)) by (apply encNNI_shortest; lia).
  assert (Zn : pa_exp p = (if (n <? 2 ^ 63)%N then Z.of_N n else Z.of_N n - 2 ^ 64)%Z) by (replace (n <? 2 ^ 63) with true by lia; unfold n; lia).
  destruct (pa_valid p) as [q|]; cbn [option_map].
  - destruct Vv as (x & rr & Tl & R & R1 & R2). exists [(109, encNNI n); (253, x)], (encNNI n), n. split.
    { constructor; [exact Tev|]. rewrite <- (app_nil_r w). constructor; [exact Tl|constructor]. }
    split; [exists [], [(253, x)]; split; [reflexivity|intros []]|]. split; [exact Nn|]. split; [exact Zn|]. split.
    + exists x, w, rr. splits; auto. exists [(109, encNNI n)], []. split; [reflexivity|]. cbn. intros [Q|[]]. discriminate.
    + cbn. intros t [<-|[<-|[]]]; auto.
  - subst w. exists [(109, encNNI n)], (encNNI n), n. split; [constructor; [exact Tev|constructor]|].
    split; [exists [], []; split; [reflexivity|intros []]|]. split; [exact Nn|]. split; [exact Zn|]. split; [cbn; intros [Q|[]]; discriminate|]. cbn. intros t [<-|[]]; auto.
Qed.
Lemma pa_step_inv : forall op p, pa_inv p -> pa_op_ok other op -> match op with PToData _ _ => snd (pa_step conv op p) = None | _ => True end -> pa_inv (fst (pa_step conv op p)).
Proof.
  intros op p I A Hn. pose proof I as (I1 & I2 & I3 & I4 & I5). destruct op as [n|z|v|s ver]; cbn [pa_step pa_op_ok] in *.
  - destruct A as [A1 A2]. unfold pa_inv. cbn [fst pa_setName pa_name pa_exp pa_valid pa_data]. splits; auto; try lia. discriminate.
  - unfold pa_setExpiration. destruct (z <? 0)%Z eqn:Q; [exact I|]. unfold pa_inv. cbn [fst pa_name pa_exp pa_valid pa_data]. splits; auto; try lia. discriminate.
  - unfold pa_inv. cbn [fst pa_setValidity pa_name pa_exp pa_valid pa_data]. splits; auto; try lia; [|discriminate]. intros q ->. exact A.
  - destruct A as [A1 A2]. destruct (pa_toData conv s ver p) as [p' [d|x]] eqn:E; cbn [fst snd err_of] in *; [|discriminate]. exact (proj1 (toData_inv _ _ _ _ _ I A1 A2 E)).
Qed.
Lemma pa_run_inv : forall ops p, pa_inv p -> Forall (pa_op_ok other) ops -> signs conv ops p -> pa_inv (pa_run conv ops p).
Proof.
  induction ops as [|op ops IH]; intros p I F Sg; [exact I|]. apply Forall_cons_iff in F as [A F]. destruct Sg as [S1 S2]. unfold pa_run. cbn [fold_left]. apply IH; auto. now apply pa_step_inv.
Qed.
Lemma start_inv : forall p, pa_start dconv other p -> pa_inv p.
Proof. intros p [-> | (e & d & D & L & H & G)]; [apply new_inv|eapply received_inv; eauto]. Qed.
End Hist.
Lemma pa_eqb_iff : forall a b, pa_eqb a b = true <-> pa_view a = pa_view b.
Proof.
  intros a b. unfold pa_eqb, pa_view. rewrite !andb_true_iff, nm_equals_iff, Z.eqb_eq.
  destruct (pa_valid a) as [x|], (pa_valid b) as [y|]; cbn [option_map]; unfold vp_eqb; rewrite ?andb_true_iff, ?Z.eqb_eq; split; intros H.
  - destruct H as [[-> ->] [-> ->]]. reflexivity.
  - injection H; auto.
  - destruct H as [_ H]. discriminate.
  - discriminate.
  - destruct H as [_ H]. discriminate.
  - discriminate.
  - destruct H as [[-> ->] _]. reflexivity.
  - injection H; auto.
Qed.
Lemma toData_view : forall conv s n p p' r, pa_toData conv s n p = (p', r) -> pa_view p' = pa_view p.
Proof.
  intros conv s n p p' r H. unfold pa_toData in H. destruct (pa_data p); [congruence|]. destruct (fromKind conv KVersion n); [|congruence]. destruct (fromKind conv KSegment 0); [|congruence].
  destruct (match pa_valid p with None => (None, []) | Some q => let (q', e) := vp_wireEncode q in (Some q', e_wire e) end) as [vo w] eqn:V.
  assert (Vm : option_map (fun v => (vp_nb v, vp_na v)) vo = option_map (fun v => (vp_nb v, vp_na v)) (pa_valid p)).
  { destruct (pa_valid p) as [q|]; [|injection V as <- _; reflexivity]. unfold vp_wireEncode in V. destruct (vp_wire q); injection V as <- _; reflexivity. }
  destruct (da_setContentBlock _ _) as [d1 [x|]]; [injection H as <- _; unfold pa_view; cbn [pa_name pa_exp pa_valid]; now rewrite Vm|].
  destruct s as [[si g]|]; [|injection H as <- _; unfold pa_view; cbn [pa_name pa_exp pa_valid]; now rewrite Vm].
  destruct (da_sign g si d1) as [d2 [e|x]]; injection H as <- _; unfold pa_view; cbn [pa_name pa_exp pa_valid]; now rewrite Vm.
Qed.
