(* Proofs about NFD's datasets. *)
From Coq Require Import ZArith Lia ZifyBool ZifyNat ZifyN Permutation.
From Verif Require Import Base BaseLemmas M_Tlv S_Tlv P_Tlv P_Block M_Name S_Name P_Name P_Packet P_Data P_InterestD M_Control S_Control P_Control M_Signer M_NfdData S_NfdData.
Open Scope N_scope.

Definition kshape (k : dkind) : shape :=
  match k with
  | DNum => Int (2 ^ 64) | DStr => Text | DText => NonEmpty | DEnum l => Int l | DTime | DLimit => Duration | DStamp => Stamp | DBits b => Flags b | DName => NameOf | DNested => Nested
  end.
Definition row_field (r : row) : field := if required r then Required (w_type r) (kshape (w_kind r)) else Optional (w_type r) (kshape (w_kind r)).
Lemma row_field_shape : forall r, field_shape (row_field r) = kshape (w_kind r).
Proof. intro r. unfold row_field. destruct (required r); reflexivity. Qed.
Lemma layout_rows : forall c, map row_field (ty_rows (class c)) = layout c.
Proof. intros []; reflexivity. Qed.
Lemma number_type' : forall c, ty_type (class c) = number c.
Proof. intros []; reflexivity. Qed.
Lemma records_sub : forall c, match ty_sub (class c), records c with Some (t, rs), Some l => t = 129 /\ map row_field rs = l | None, None => True | _, _ => False end.
Proof. intros []; cbn; auto. Qed.

(* well-formed tables *)
Definition kind_wf (t : N) (k : dkind) : Prop :=
  0 < t /\ t < two32 /\ match k with DName => t = 7 | DEnum l => l <= 2 ^ 64 | DBits b => 2 ^ b <= 2 ^ 64 | _ => True end.
Definition kind_wfb (t : N) (k : dkind) : bool :=
  (0 <? t) && (t <? two32) && match k with DName => t =? 7 | DEnum l => l <=? 2 ^ 64 | DBits b => 2 ^ b <=? 2 ^ 64 | _ => true end.
Lemma kind_wfb_ok : forall t k, kind_wfb t k = true -> kind_wf t k.
Proof. intros t k H. unfold kind_wfb in H. unfold kind_wf. destruct k; lia. Qed.
(* the values of a reachable object *)
Definition val_inv (r : row) (v : option cval) : Prop :=
  match v with None => required r = false | Some x => holds (kshape (w_kind r)) x /\ (w_kind r = DText -> x <> VStr []) end.
Definition vals_inv (rs : list row) (vs : vals) : Prop := Forall2 val_inv rs vs.
Definition rows_wf (rs : list row) : Prop := Forall (fun r => kind_wf (w_type r) (w_kind r)) rs /\ NoDup (map w_type rs).
Lemma class_wf : forall c, rows_wf (ty_rows (class c)).
Proof.
  intro c. split.
  - destruct c; cbn; repeat constructor; apply kind_wfb_ok; reflexivity.
  - destruct c; cbn; repeat (constructor; [cbn; intuition discriminate|]); constructor.
Qed.
Lemma sub_wf : forall c t rs, ty_sub (class c) = Some (t, rs) -> rows_wf rs.
Proof.
  intros c t rs H. destruct c; cbn in H; try discriminate; injection H as <- <-; [apply (class_wf NextHopRecord)|apply (class_wf Route)].
Qed.

Lemma nni_wf : forall t n, 0 < t -> t < two32 -> elem_wf (mkBlock t (encNNI n)) /\ e_wire (mkBlock t (encNNI n)) = tlv_nni t n.
Proof.
  intros t n A B. split; [|apply mkBlock_wire]. apply mkBlock_wf; auto. rewrite encNNI_len. destruct (sizeOfNNI_cases n) as [->|[->|[->| ->]]]; reflexivity.
Qed.
Lemma quot_bounds : forall z, (Z.abs (Z.quot z 1000000 * 1000000) <= Z.abs z < Z.abs (Z.quot z 1000000 * 1000000) + 1000000)%Z /\ (0 <= Z.quot z 1000000 * z)%Z.
Proof.
  intro z. pose proof (Z.quot_rem' z 1000000) as E. destruct (Z.le_gt_cases 0 z) as [P|P].
  - pose proof (Z.rem_bound_pos z 1000000 P ltac:(lia)). pose proof (Z.quot_pos z 1000000 P ltac:(lia)). split; [lia|]. apply Z.mul_nonneg_nonneg; auto.
  - pose proof (Z.rem_bound_pos (- z) 1000000 ltac:(lia) ltac:(lia)) as R. pose proof (Z.quot_pos (- z) 1000000 ltac:(lia) ltac:(lia)) as Q. rewrite Z.rem_opp_l, Z.quot_opp_l in * by lia. split; [lia|]. apply Z.mul_nonpos_nonpos; lia.
Qed.
Lemma quot_int64 : forall z, int64 z -> int64 (Z.quot z 1000000) /\ int64 (Z.quot z 1000000 * 1000000).
Proof. intros z H. destruct (quot_bounds z) as [A B]. unfold int64 in *. split; nia. Qed.
Lemma i64_ok : forall z, int64 z -> i64 z = Ok z.
Proof. intros z H. unfold int64 in H. unfold i64. destruct (_ && _) eqn:E; [reflexivity|lia]. Qed.

Ltac fin := splits; try (exact eq_refl); try (intro; discriminate); try (apply mkBlock_wire); try assumption; try (exact Logic.I).
(* a field written and read again *)
Lemma dv_round : forall t k v, kind_wf t k -> holds (kshape k) v -> (k = DText -> v <> VStr []) -> nlen (dv_octets t k v) < two64 ->
  exists e v', elem_wf e /\ e_type e = t /\ e_wire e = dv_octets t k v /\ dv_decode k e = Ok (Some v') /\ same_val (kshape k) (Some v') (Some v) /\
    holds (kshape k) v' /\ (k = DText -> v' <> VStr []).
Proof.
  intros t k v (T0 & T1 & KW) H NE L.
  destruct k, v; cbn [kshape holds] in H; try contradiction; cbn [dv_octets] in *; cbn [kshape same_val val_eq dv_decode].
  - destruct (nni_wf t n T0 T1) as [W WI]. exists (mkBlock t (encNNI n)), (VNum n). fin. rewrite readNNI_block by exact H. reflexivity.
  - exists (mkBlock t s), (VStr s). fin. apply mkBlock_wf; auto. rewrite tlv_enc_len in L. lia.
  - exists (mkBlock t s), (VStr s). fin; [apply mkBlock_wf; auto; rewrite tlv_enc_len in L; lia|].
    cbn [mkBlock e_val]. destruct s; [exfalso; apply NE; auto|reflexivity].
  - destruct (nni_wf t n T0 T1) as [W WI]. exists (mkBlock t (encNNI n)), (VNum n). fin.
    unfold readNNIBlockAs. rewrite readNNI_block by lia. cbn [bind]. destruct (N.leb_spec limit n); [lia|reflexivity].
  - destruct (time_round z H) as [TR TL]. destruct (nni_wf t (time_u64 z) T0 T1) as [W WI]. exists (mkBlock t (encNNI (time_u64 z))), (VTime z). fin.
    rewrite readNNI_block by exact TL. cbn [bind]. now rewrite TR.
  - destruct (time_round z H) as [TR TL]. destruct (nni_wf t (time_u64 z) T0 T1) as [W WI]. exists (mkBlock t (encNNI (time_u64 z))), (VTime z). fin.
    rewrite readNNI_block by exact TL. cbn [bind]. now rewrite TR.
  - destruct (quot_int64 z H) as [Q1 Q2]. destruct (time_round _ Q1) as [TR TL]. destruct (nni_wf t (unix_ms z) T0 T1) as [W WI]. exists (mkBlock t (encNNI (unix_ms z))), (VTime (Z.quot z 1000000 * 1000000)). fin.
    + rewrite readNNI_block by exact TL. cbn [bind]. unfold unix_ms. rewrite TR. rewrite i64_ok by exact Q2. reflexivity.
    + apply Z.quot_mul. discriminate.
  - destruct (nni_wf t n T0 T1) as [W WI]. exists (mkBlock t (encNNI n)), (VNum n). fin.
    rewrite readNNI_block by lia. cbn [bind]. now rewrite N.mod_small.
  - subst t. destruct (nm_decode_octets n H L) as (e & n' & W & T & WI & D & K). exists e, (VName n'). fin; [rewrite D; reflexivity|eapply nm_decode_ok; eauto].
  - rewrite tlv_enc_len in L. destruct (nm_decode_octets n H) as (e & n' & W & T & WI & D & K); [lia|]. exists (mkBlock t (nm_octets n)), (VName n').
    fin; [apply mkBlock_wf; auto; lia| |eapply nm_decode_ok; eauto].
    cbn [mkBlock e_val]. assert (P : parseValue (nm_octets n) = Ok [e]) by (apply parseValue_ok_iff; split; [constructor; auto|cbn; rewrite app_nil_r; auto]).
    rewrite P. cbn [bind]. rewrite D. reflexivity.
Qed.
Lemma row_round : forall rs, rows_wf rs -> forall vs, vals_inv rs vs -> nlen (rows_octets rs vs) < two64 ->
  exists es vs', Forall elem_wf es /\ concat (map e_wire es) = rows_octets rs vs /\ Forall (fun e => In (e_type e) (map w_type rs)) es /\
    same_vals (map row_field rs) vs' vs /\ vals_inv rs vs' /\
    forall tail, (forall e tl r, tail = e :: tl -> In r rs -> required r = false -> e_type e <> w_type r) -> rows_decode rs (es ++ tail) = Ok (vs', tail).
Proof.
  induction rs as [|r rs IH]; intros [WF ND] vs I L.
  - inversion I; subst. exists [], []. splits; auto; constructor.
  - inversion I as [|? v ? vs0 V I']; subst. inversion WF as [|? ? K WF']; subst. cbn [map] in ND. inversion ND as [|? ? NI ND']; subst.
    cbn [rows_octets] in L. rewrite nlen_app in L. destruct (IH (conj WF' ND') vs0 I') as (es & vs' & W & C & T & SV & I2 & D); [lia|].
    destruct v as [v|]; cbn [val_inv] in V.
    + destruct V as [H NE]. destruct (dv_round _ _ _ K H NE) as (e & v' & We & Te & Wi & De & Sv & Hv & NEv); [lia|].
      exists (e :: es), (Some v' :: vs'). splits.
      * constructor; auto.
      * cbn [map concat rows_octets]. now rewrite Wi, C.
      * constructor; [cbn; auto|]. eapply Forall_impl; [|exact T]. cbn. auto.
      * constructor; auto. now rewrite row_field_shape.
      * constructor; auto. split; auto.
      * intros tail TL. cbn [app rows_decode]. rewrite Te, N.eqb_refl, De. cbn [bind]. rewrite D; [reflexivity|]. intros x tl r0 E IN. apply (TL x tl); auto. now right.
    + exists es, (None :: vs'). splits; auto.
      * eapply Forall_impl; [|exact T]. cbn. auto.
      * constructor; auto. unfold same_val. destruct (field_shape _); exact Logic.I.
      * constructor; auto.
      * intros tail TL. assert (DE : rows_decode rs (es ++ tail) = Ok (vs', tail)). { apply D. intros x tl r0 E IN. apply (TL x tl); auto. now right. }
        cbn [rows_decode]. rewrite V. destruct (es ++ tail) as [|x l] eqn:E; [now rewrite DE|]. assert (NE : e_type x <> w_type r).
        { destruct es as [|y es]; cbn in E; [subst; apply (TL x l r); auto; now left|]. injection E as <- _. inversion T as [|? ? T1 T2]; subst. intro X. rewrite X in T1. contradiction. }
        destruct (N.eqb_spec (e_type x) (w_type r)); [contradiction|]. rewrite DE. reflexivity.
Qed.
Lemma subs_round : forall rs, rows_wf rs -> forall subs, Forall (vals_inv rs) subs -> nlen (concat (map (fun v => tlv_enc 129 (rows_octets rs v)) subs)) < two64 ->
  exists es subs', Forall elem_wf es /\ concat (map e_wire es) = concat (map (fun v => tlv_enc 129 (rows_octets rs v)) subs) /\ Forall (fun e => e_type e = 129) es /\
    Forall2 (same_vals (map row_field rs)) subs' subs /\ Forall (vals_inv rs) subs' /\ subs_decode 129 rs es = Ok subs'.
Proof.
  intros rs WF subs. induction subs as [|v subs IH]; intros I L.
  - exists [], []. splits; auto.
  - inversion I; subst. cbn [map concat] in L. rewrite nlen_app, tlv_enc_len in L. destruct IH as (es & subs' & W & C & T & SV & I2 & D); [auto|lia|].
    destruct (row_round rs WF v) as (xs & v' & Wx & Cx & _ & Sx & Ix & Dx); [auto|lia|]. exists (mkBlock 129 (rows_octets rs v) :: es), (v' :: subs'). splits.
    + constructor; auto. apply mkBlock_wf; [reflexivity|reflexivity|lia].
    + cbn [map concat]. now rewrite mkBlock_wire, C.
    + constructor; auto.
    + constructor; auto.
    + constructor; auto.
    + cbn [subs_decode mkBlock e_type e_val]. change (negb (129 =? 129)) with false. cbv iota. assert (P : parseValue (rows_octets rs v) = Ok xs) by (apply parseValue_ok_iff; split; auto). rewrite P. cbn [bind].
      specialize (Dx []). rewrite app_nil_r in Dx. rewrite Dx by discriminate. cbn [bind]. rewrite D. reflexivity.
Qed.

Definition obj_inv (c : dclass) (o : dobj) : Prop :=
  vals_inv (ty_rows (class c)) (do_vals o) /\ match ty_sub (class c) with Some (_, rs) => Forall (vals_inv rs) (do_subs o) | None => True end.
Definition do_inv (c : dclass) (o : dobj) : Prop :=
  obj_inv c o /\ forall e, do_wire o = Some e -> elem_wf e /\ exists q, ty_decode (class c) e = Ok q /\ same_entry c q o.
Lemma number_ok : forall c, 0 < number c /\ number c < two32.
Proof. intros []; split; reflexivity. Qed.

Lemma ty_round : forall c o, obj_inv c o -> nlen (ty_value (class c) o) < two64 -> forall e, e_type e = number c -> e_val e = ty_value (class c) o ->
  exists q, ty_decode (class c) e = Ok q /\ same_entry c q o.
Proof.
  intros c o [I IS] L e T V. unfold ty_decode. rewrite number_type', T, N.eqb_refl, V. cbn [negb]. unfold ty_value in *. pose proof (records_sub c) as RS. unfold same_entry.
  rewrite nlen_app in L. destruct (row_round _ (class_wf c) _ I) as (es & vs' & W & C & Tes & SV & I2 & D); [lia|]. rewrite layout_rows in SV.
  destruct (ty_sub (class c)) as [[t rs]|] eqn:SU; destruct (records c) as [l|]; try contradiction.
  - destruct RS as [-> RL]. destruct (subs_round rs (sub_wf _ _ _ SU) _ IS) as (es2 & subs' & W2 & C2 & T2 & SV2 & _ & D2); [lia|].
    assert (P : parseValue (rows_octets (ty_rows (class c)) (do_vals o) ++ concat (map (fun v => tlv_enc 129 (rows_octets rs v)) (do_subs o))) = Ok (es ++ es2)).
    { apply parseValue_ok_iff. split; [apply Forall_app; auto|]. now rewrite map_app, concat_app, C, C2. }
    rewrite P. cbn [bind]. rewrite D.
    + cbn [bind snd fst]. rewrite D2. cbn [bind]. eexists. split; [reflexivity|]. cbn. split; auto. now rewrite <- RL.
    + intros x tl r E IN RQ. destruct c; cbn in SU; try discriminate; cbn in IN; destruct IN as [<-|[]]; discriminate RQ.
  - assert (P : parseValue (rows_octets (ty_rows (class c)) (do_vals o) ++ []) = Ok es) by (apply parseValue_ok_iff; split; auto; now rewrite app_nil_r, C).
    rewrite P. cbn [bind]. specialize (D []). rewrite app_nil_r in D. rewrite D by discriminate. cbn [bind]. eexists. split; [reflexivity|]. cbn. auto.
Qed.
Lemma fresh_encode : forall c o, obj_inv c o -> do_wire o = None -> nlen (tlv_enc (number c) (ty_value (class c) o)) <= MAX_BUFFER ->
  exists q, ty_encode (class c) o = Ok (mkBlock (number c) (ty_value (class c) o), mkObj (do_vals o) (do_subs o) (Some (mkBlock (number c) (ty_value (class c) o)))) /\
    elem_wf (mkBlock (number c) (ty_value (class c) o)) /\ ty_decode (class c) (mkBlock (number c) (ty_value (class c) o)) = Ok q /\ same_entry c q o.
Proof.
  intros c o I W L. pose proof L as L'. rewrite tlv_enc_len in L'. unfold MAX_BUFFER in L'. assert (LV : nlen (ty_value (class c) o) < two64) by (unfold two64; lia).
  destruct (number_ok c) as [N0 N1]. assert (WF : elem_wf (mkBlock (number c) (ty_value (class c) o))) by (apply mkBlock_wf; auto).
  destruct (ty_round c o I LV (mkBlock (number c) (ty_value (class c) o)) eq_refl eq_refl) as (q & D & S). exists q. splits; auto.
  unfold ty_encode. rewrite W, number_type'. unfold alloc. destruct (N.ltb_spec MAX_BUFFER (nlen (tlv_enc (number c) (ty_value (class c) o)))); [lia|]. cbn [bind].
  rewrite <- mkBlock_wire, blockFromWire_wf by exact WF. reflexivity.
Qed.

(* what is read *)
Lemma as_ok : forall l e n, readNNIBlockAs l e = Ok n -> readNNIBlock e = Ok n /\ n < l.
Proof. intros l e n H. unfold readNNIBlockAs in H. inv_bind H. destruct (N.leb_spec l a); [discriminate|]. apply Ok_inj in H as <-. auto. Qed.
Lemma i64_inv : forall z y, i64 z = Ok y -> y = z /\ int64 z.
Proof. intros z y H. unfold i64 in H. destruct (_ && _) eqn:E; [|discriminate]. apply Ok_inj in H as <-. unfold int64. split; lia. Qed.
Lemma dv_hears : forall k e v, dv_decode k e = Ok v -> hears (kshape k) v (e_val e).
Proof.
  intros k e v H. destruct k; cbn [dv_decode kshape] in *.
  - inv_bind H. apply Ok_inj in H as <-. cbn. split; [now apply readNNIBlock_iff|eapply readNNI_lt; eauto].
  - apply Ok_inj in H as <-. reflexivity.
  - apply Ok_inj in H as <-. destruct (e_val e) eqn:E; cbn; auto. split; [auto|discriminate].
  - inv_bind H. apply Ok_inj in H as <-. apply as_ok in E as [E1 E2]. cbn. split; [now apply readNNIBlock_iff|auto].
  - inv_bind H. apply Ok_inj in H as <-. cbn. split; [apply u64_range; eapply readNNI_lt; eauto|]. exists a. split; [now apply readNNIBlock_iff|apply u64_mod].
  - inv_bind H. apply Ok_inj in H as <-. cbn. split; [apply u64_range; eapply readNNI_lt; eauto|]. exists a. split; [now apply readNNIBlock_iff|apply u64_mod].
  - inv_bind H. inv_bind H. apply Ok_inj in H as <-. apply i64_inv in E0 as [-> R]. cbn. split; auto. exists a, (u64_time a). splits; [now apply readNNIBlock_iff|apply u64_range; eapply readNNI_lt; eauto|apply u64_mod|reflexivity].
  - inv_bind H. apply Ok_inj in H as <-. cbn. exists a. split; [now apply readNNIBlock_iff|reflexivity].
  - inv_bind H. apply Ok_inj in H as <-. cbn. now apply nm_decode_keys in E.
  - inv_bind H. destruct a as [|x es]; [discriminate|]. inv_bind H. apply Ok_inj in H as <-. cbn. apply parseValue_ok_iff in E as [W C]. apply nm_decode_keys in E0 as (T & SQ & _).
    inversion W; subst. exists (e_val x), (e_wire x), (map (fun e => (e_type e, e_val e)) es), (concat (map e_wire es)). splits; auto.
    + apply is_tlv_elem. exists x. auto.
    + apply is_tlv_seq_elems. exists es. auto.
Qed.
Lemma dv_inv : forall r e v, kind_wf (w_type r) (w_kind r) -> dv_decode (w_kind r) e = Ok v -> (w_kind r = DText -> required r = false) -> val_inv r v.
Proof.
  intros r e v (_ & _ & K) H O. destruct (w_kind r) eqn:KI; cbn [dv_decode] in H.
  - inv_bind H. apply Ok_inj in H as <-. cbn. rewrite KI. split; [eapply readNNI_lt; eauto|discriminate].
  - apply Ok_inj in H as <-. cbn. rewrite KI. split; [exact Logic.I|discriminate].
  - apply Ok_inj in H as <-. destruct (e_val e) eqn:E; cbn; auto. rewrite KI. split; [exact Logic.I|discriminate].
  - inv_bind H. apply Ok_inj in H as <-. apply as_ok in E as [E1 E2]. cbn. rewrite KI. split; [exact E2|discriminate].
  - inv_bind H. apply Ok_inj in H as <-. cbn. rewrite KI. split; [apply u64_range; eapply readNNI_lt; eauto|discriminate].
  - inv_bind H. apply Ok_inj in H as <-. cbn. rewrite KI. split; [apply u64_range; eapply readNNI_lt; eauto|discriminate].
  - inv_bind H. inv_bind H. apply Ok_inj in H as <-. apply i64_inv in E0 as [-> R]. cbn. rewrite KI. split; [exact R|discriminate].
  - inv_bind H. apply Ok_inj in H as <-. cbn. rewrite KI. split; [|discriminate]. cbn. apply N.mod_lt. apply N.pow_nonzero. discriminate.
  - inv_bind H. apply Ok_inj in H as <-. cbn. rewrite KI. split; [eapply nm_decode_ok; eauto|discriminate].
  - inv_bind H. destruct a as [|x es]; [discriminate|]. inv_bind H. apply Ok_inj in H as <-. cbn. rewrite KI. split; [eapply nm_decode_ok; eauto|discriminate].
Qed.
Definition text_opt (rs : list row) : Prop := Forall (fun r => w_kind r = DText -> required r = false) rs.
Lemma class_text : forall c, text_opt (ty_rows (class c)).
Proof. intros []; cbn; repeat constructor; cbn; try discriminate; reflexivity. Qed.
Lemma sub_text : forall c t rs, ty_sub (class c) = Some (t, rs) -> text_opt rs.
Proof. intros c t rs H. destruct c; cbn in H; try discriminate; injection H as <- <-; [apply (class_text NextHopRecord)|apply (class_text Route)]. Qed.
Lemma rows_inv : forall rs, rows_wf rs -> text_opt rs -> forall es vs rest, rows_decode rs es = Ok (vs, rest) -> vals_inv rs vs.
Proof.
  induction rs as [|r rs IH]; intros [WF ND] TX es vs rest H; cbn [rows_decode] in H; [apply Ok_inj in H; injection H as <- <-; constructor|].
  inversion WF; subst. inversion TX; subst. cbn in ND. inversion ND; subst. assert (IH' : forall es vs rest, rows_decode rs es = Ok (vs, rest) -> vals_inv rs vs) by (apply IH; [split|]; auto).
  destruct es as [|e es]; [|destruct (e_type e =? w_type r)].
  - destruct (required r) eqn:RQ; [discriminate|]. inv_bind H. destruct a. apply Ok_inj in H; injection H as <- <-. constructor; [exact RQ|eapply IH'; eauto].
  - inv_bind H. inv_bind H. destruct a0. apply Ok_inj in H; injection H as <- <-. constructor; [eapply dv_inv; eauto|eapply IH'; eauto].
  - destruct (required r) eqn:RQ; [discriminate|]. inv_bind H. destruct a. apply Ok_inj in H; injection H as <- <-. constructor; [exact RQ|eapply IH'; eauto].
Qed.
Definition pairs (es : list elem) : list (N * bytes) := map (fun e => (e_type e, e_val e)) es.
Lemma rows_heard : forall rs es vs rest, rows_decode rs es = Ok (vs, rest) -> heard (map row_field rs) (pairs es) vs (pairs rest).
Proof.
  induction rs as [|r rs IH]; intros es vs rest H; cbn [rows_decode] in H; [apply Ok_inj in H; injection H as <- <-; constructor|]. cbn [map]. unfold row_field at 1.
  destruct es as [|e es]; [|destruct (N.eqb_spec (e_type e) (w_type r)) as [T|T]].
  - destruct (required r) eqn:RQ; [discriminate|]. inv_bind H. destruct a. apply Ok_inj in H; injection H as <- <-. constructor; [intros d es' X; discriminate|]. exact (IH _ _ _ E).
  - inv_bind H. inv_bind H. destruct a0. apply Ok_inj in H; injection H as <- <-. cbn [pairs map]. rewrite T. destruct (required r); constructor; auto using dv_hears; exact (IH _ _ _ E0).
  - destruct (required r) eqn:RQ; [discriminate|]. inv_bind H. destruct a. apply Ok_inj in H; injection H as <- <-. constructor; [intros d es' X; injection X; auto|]. exact (IH _ _ _ E).
Qed.
Lemma subs_heard : forall rs es subs, subs_decode 129 rs es = Ok subs -> Forall2 (record_heard (map row_field rs)) subs (pairs es).
Proof.
  intros rs. induction es as [|e es IH]; intros subs H; cbn [subs_decode] in H; [apply Ok_inj in H as <-; constructor|].
  destruct (N.eqb_spec (e_type e) 129) as [T|]; [|discriminate]. cbn [negb] in H. inv_bind H. inv_bind H. inv_bind H. apply Ok_inj in H as <-. destruct a0. constructor; [|auto].
  split; [exact T|]. apply parseValue_ok_iff in E as [W C]. exists (pairs a), (pairs l). split; [apply is_tlv_seq_elems; exists a; auto|]. now apply rows_heard.
Qed.
Lemma subs_inv : forall rs, rows_wf rs -> text_opt rs -> forall es subs, subs_decode 129 rs es = Ok subs -> Forall (vals_inv rs) subs.
Proof.
  intros rs WF TX. induction es as [|e es IH]; intros subs H; cbn [subs_decode] in H; [apply Ok_inj in H as <-; constructor|].
  destruct (negb _); [discriminate|]. inv_bind H. inv_bind H. inv_bind H. apply Ok_inj in H as <-. destruct a0. constructor; [eapply rows_inv; eauto|auto].
Qed.
Lemma ty_heard : forall c e o, ty_decode (class c) e = Ok o -> e_type e = number c /\ entry_heard c (do_vals o) (do_subs o) (e_val e) /\ obj_inv c o /\ do_wire o = Some e.
Proof.
  intros c e o H. unfold ty_decode in H. rewrite number_type' in H. destruct (N.eqb_spec (e_type e) (number c)) as [T|]; [|discriminate]. cbn [negb] in H. split; auto.
  inv_bind H. inv_bind H. destruct a0 as [vs rest]. cbn [fst snd] in H. apply parseValue_ok_iff in E as [W C]. pose proof (rows_heard _ _ _ _ E0) as HE. rewrite layout_rows in HE.
  pose proof (rows_inv _ (class_wf c) (class_text c) _ _ _ E0) as VI. pose proof (records_sub c) as RS. unfold entry_heard, obj_inv.
  destruct (ty_sub (class c)) as [[t rs]|] eqn:SU; destruct (records c) as [l|]; try contradiction.
  - destruct RS as [-> RL]. inv_bind H. apply Ok_inj in H as <-. cbn [do_vals do_subs do_wire]. split; [|split; [split; [exact VI|eapply subs_inv; eauto using sub_wf, sub_text]|reflexivity]].
    exists (pairs a), (pairs rest). split; [apply is_tlv_seq_elems; exists a; auto|]. split; auto. rewrite <- RL. now apply subs_heard.
  - apply Ok_inj in H as <-. cbn [do_vals do_subs do_wire]. split; [|split; [split; auto|reflexivity]]. exists (pairs a), (pairs rest). split; [apply is_tlv_seq_elems; exists a; auto|]. auto.
Qed.
