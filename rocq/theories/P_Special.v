(* Proofs about Link. *)
From Coq Require Import Lia ZifyBool ZifyNat ZifyN ZArith.
From Verif Require Import Base BaseLemmas M_Tlv P_Tlv S_Tlv P_Block M_Str M_Name S_Name P_Name P_NameUri M_Packet S_Packet P_Packet P_Data P_DataT P_DataHist
  M_Validity S_Validity M_Special S_Special.
Open Scope N_scope.
Open Scope list_scope.

Lemma decode_seq : forall e cs, e_type e = 7 -> is_tlv_seq cs (e_val e) -> exists n, nm_decode e = Ok n /\ nkey n = cs.
Proof.
  intros e cs T H. apply seq_parse in H as (es & P & <-). unfold nm_decode. rewrite T. change (7 =? tName) with true. cbn [negb]. rewrite P. cbn [bind].
  eexists. split; [reflexivity|]. unfold nkey. cbn [n_comps]. rewrite map_map. reflexivity.
Qed.
Lemma loop_sound : forall es acc ns, lk_loop es acc = (ns, None) ->
  exists ns', ns = acc ++ ns' /\ names_in (map ekey es) (map nkey ns') /\ Forall (fun n => Forall ctype_ok (n_comps n)) ns'.
Proof.
  induction es as [|e es IH]; intros acc ns H; cbn [lk_loop] in H.
  - injection H as <-. exists []. rewrite app_nil_r. splits; constructor.
  - destruct (N.eqb_spec (e_type e) tName) as [T|T].
    + destruct (nm_decode e) as [n|] eqn:D; [|discriminate]. apply IH in H as (ns' & -> & I & F). exists (n :: ns'). split; [now rewrite <- app_assoc|].
      split.
      * cbn [map]. unfold ekey at 1. rewrite T. apply ni_name; [|exact I]. now apply nm_decode_keys in D.
      * constructor; [|exact F]. now apply nm_decode_ok in D.
    + destruct (isCriticalType (e_type e)) eqn:C; [discriminate|]. apply IH in H as (ns' & -> & I & F). exists ns'. splits; auto.
      cbn [map]. unfold ekey at 1. apply ni_other; auto. intro K. apply isCritical_iff in K. congruence.
Qed.
Lemma names_inv : forall t v l ks, names_in ((t, v) :: l) ks ->
  (t = 7 /\ exists cs ns, ks = cs :: ns /\ is_tlv_seq cs v /\ names_in l ns) \/ (t <> 7 /\ ~ critical t /\ names_in l ks).
Proof. intros t v l ks H. inversion H; subst; [left|right]; eauto 8. Qed.
Lemma loop_complete : forall es ks acc, names_in (map ekey es) ks -> exists ns, lk_loop es acc = (acc ++ ns, None) /\ map nkey ns = ks.
Proof.
  induction es as [|e es IH]; intros ks acc H; cbn [lk_loop].
  - inversion H. exists []. rewrite app_nil_r. auto.
  - change (map ekey (e :: es)) with ((e_type e, e_val e) :: map ekey es) in H. apply names_inv in H as [(T & cs & ns & -> & SQ & I)|(T & NC & I)].
    + destruct (decode_seq e cs T SQ) as (n & D & K). rewrite T. change (7 =? tName) with true. cbv iota. rewrite D.
      destruct (IH ns (acc ++ [n]) I) as (ns' & -> & K'). exists (n :: ns'). rewrite <- app_assoc. split; [reflexivity|]. cbn [map]. congruence.
    + destruct (N.eqb_spec (e_type e) tName) as [X|_]; [contradiction|].
      destruct (isCriticalType (e_type e)) eqn:C; [apply isCritical_iff in C; contradiction|]. now apply IH.
Qed.
Lemma names_in_unique : forall l a b, names_in l a -> names_in l b -> a = b.
Proof.
  induction l as [|[t v] l IH]; intros a b A B; [inversion A; inversion B; reflexivity|].
  apply names_inv in A as [(T & cs & ns & -> & SA & IA)|(T & NC & IA)]; apply names_inv in B as [(T' & cs' & ns' & -> & SB & IB)|(T' & NC' & IB)]; try contradiction; auto.
  f_equal; [eapply is_tlv_seq_unique; eauto|auto].
Qed.
Lemma octets_in : forall ds, Forall (fun n => Forall ctype_ok (n_comps n)) ds -> nlen (concat (map nm_octets ds)) < two64 ->
  exists l, is_tlv_seq l (concat (map nm_octets ds)) /\ names_in l (map nkey ds).
Proof.
  induction ds as [|n ds IH]; intros F L; cbn [map concat].
  - exists []. split; constructor.
  - apply Forall_cons_iff in F as [A F]. cbn [map concat] in L. rewrite nlen_app in L. destruct (IH F ltac:(lia)) as (l & SQ & I).
    destruct (nm_octets_is n A ltac:(lia)) as (v & K & T). exists ((7, v) :: l). split; [now constructor|]. now apply ni_name.
Qed.

(* what a packet says depends on its fields only *)
Lemma says_fields : forall d d' ns, da_fields d = da_fields d' -> says d ns -> says d' ns.
Proof.
  intros d d' ns F [T (l & SQ & I)]. unfold da_fields, mi_fields, ckey in F.
  assert (mi_type (d_meta d) = mi_type (d_meta d')) by congruence. assert (c_val (d_content d) = c_val (d_content d')) by congruence.
  split; [congruence|]. exists l. split; [congruence|exact I].
Qed.
Lemma says_unique : forall d a b, says d a -> says d b -> a = b.
Proof. intros d a b [_ (l & A & I)] [_ (l' & B & J)]. rewrite <- (is_tlv_seq_unique _ _ _ A B) in J. eapply names_in_unique; eauto. Qed.
Lemma decode_indep : forall e d0 d1 d, da_decode e d0 = (d, None) -> da_decode e d1 = (d, None).
Proof. intros e d0 d1 d H. apply da_decode_iff. now apply da_decode_iff in H. Qed.

Lemma lk_decode_sound : forall e l l', lk_decode e l = (l', None) ->
  (forall d0, da_decode e d0 = (lk_data l', None)) /\ says (lk_data l') (map nkey (lk_dels l')) /\ Forall (fun n => Forall ctype_ok (n_comps n)) (lk_dels l').
Proof.
  intros e l l' H. unfold lk_decode in H. destruct (da_decode e (lk_data l)) as [d [x|]] eqn:D; [discriminate|].
  destruct (N.eqb_spec (mi_type (d_meta d)) 1) as [T|]; [|discriminate]. cbn [negb] in H. destruct (parseValue (c_val (d_content d))) as [es|] eqn:P; [|discriminate].
  destruct (lk_loop es []) as [ns o] eqn:L. injection H as <- ->. cbn [lk_data lk_dels]. apply loop_sound in L as (ns' & -> & I & F). cbn [app].
  split; [intro; eapply decode_indep, D|]. split; [|exact F]. split; [exact T|]. exists (map ekey es). split; [now apply parse_keys|exact I].
Qed.
Lemma lk_decode_complete : forall e l d ks, da_decode e da_empty = (d, None) -> says d ks -> exists l', lk_decode e l = (l', None) /\ lk_data l' = d /\ map nkey (lk_dels l') = ks.
Proof.
  intros e l d ks D [T (s & SQ & I)]. unfold lk_decode. rewrite (decode_indep _ _ (lk_data l) _ D), T. change (1 =? 1) with true. cbn [negb].
  apply seq_parse in SQ as (es & P & <-). rewrite P. destruct (loop_complete es ks [] I) as (ns & -> & K). cbn [app]. eexists. split; [reflexivity|]. auto.
Qed.

Section Hist.
Variable sha256 : bytes -> bytes.
Hypothesis sha_len : forall b, nlen (sha256 b) = 32.

Definition names_ok (ds : list name) : Prop := Forall (fun n => Forall ctype_ok (n_comps n)) ds.
Definition lk_inv (l : link) : Prop := da_inv sha256 (lk_data l) /\ names_ok (lk_dels l) /\ says (lk_data l) (map nkey (lk_dels l)).

Lemma encode_inv : forall d ds l', da_inv sha256 d -> names_ok ds -> lk_encodeContent (mkLink d ds) = (l', None) ->
  lk_inv l' /\ lk_dels l' = ds /\ nkey (d_name (lk_data l')) = nkey (d_name d) /\ d_wire (lk_data l') = None.
Proof.
  intros d ds l' I F H. unfold lk_encodeContent in H. cbn [lk_data lk_dels] in H.
  set (c := mkBlock tContent (concat (map nm_octets ds))) in *. destruct (alloc (e_wire c)) as [w|] eqn:A; [|discriminate].
  apply alloc_ok in A as [_ A]. assert (L : nlen (concat (map nm_octets ds)) < two64).
  { unfold c in A. rewrite mkBlock_wire, tlv_enc_len in A. lia. }
  destruct (da_setContentBlock (comp_of_elem c) (da_setContentType 1 d)) as [d' o] eqn:E. injection H as <- ->.
  destruct (da_step_inv sha256 sha_len (DSetType 1) d (da_setContentType 1 d) I) as [I1 F1]; [cbn; lia|reflexivity|].
  destruct (da_step_inv sha256 sha_len (DSetContentBlock (comp_of_elem c)) _ d' I1) as [I2 F2].
  { cbn [da_op_ok]. split; [apply blk_ok_mk; auto; reflexivity|]. unfold blk_octets. cbn [c_hdr comp_of_elem c_val]. exact A. }
  { exact E. }
  assert (Wn : d_wire d' = None). { unfold da_setContentBlock in E. destruct (negb (blk_isValid (comp_of_elem c))); [discriminate|]. injection E as <-. reflexivity. }
  cbn [lk_data lk_dels]. unfold da_fields at 1 in F1. cbn [da_effect] in F1. destruct (mi_fields (d_meta d)) as [[[t f] fc] ap] eqn:M. cbv zeta beta in F1.
  unfold da_fields at 1 in F2. cbn [da_effect] in F2. destruct (mi_fields (d_meta (da_setContentType 1 d))) as [[[t1 f1] fc1] ap1] eqn:M1. cbv zeta beta in F2. cbn [v_meta] in F2.
  unfold da_fields in F1, F2. rewrite M1 in F1. injection F1 as N1 T1 _ _ _ C1 S1 V1. injection F2 as N2 M2 C2 V2 S2 X2.
  cbn [comp_of_elem c_type] in *. change (e_type c) with 21 in *. change (21 =? 21) with true in *. cbv iota in *.
  split; [|split; [reflexivity|split; [congruence|exact Wn]]]. unfold lk_inv. cbn [lk_data lk_dels]. split; [exact I2|]. split; [exact F|].
  split.
  - unfold mi_fields in M2. congruence.
  - destruct (octets_in ds F L) as (s & SQ & NI). exists s. split; [|exact NI].
    match goal with |- is_tlv_seq s ?x => assert (Ex : x = concat (map nm_octets ds)); [|rewrite Ex; exact SQ] end.
    unfold ckey in *. cbn [c_val] in *. unfold c in *. cbn [e_val mkBlock] in *. congruence.
Qed.

Lemma exists_in : forall n ds, existsb (fun x => nm_equals x n) ds = true <-> In (nkey n) (map nkey ds).
Proof.
  intros n ds. rewrite existsb_exists, in_map_iff. split; intros (x & A & B); exists x; [split; [now apply nm_equals_iff|auto]|split; [auto|now apply nm_equals_iff]].
Qed.
Lemma filter_remove : forall n ds, map nkey (filter (fun x => negb (nm_equals x n)) ds) = remove key_dec (nkey n) (map nkey ds).
Proof.
  induction ds as [|x ds IH]; [reflexivity|]. cbn [filter map remove]. destruct (key_dec (nkey n) (nkey x)) as [E|E].
  - assert (nm_equals x n = true) as -> by (now apply nm_equals_iff). cbn [negb]. exact IH.
  - destruct (nm_equals x n) eqn:Q; [apply nm_equals_iff in Q; congruence|]. cbn [negb map]. now rewrite IH.
Qed.
Lemma ok_filter : forall f ds, names_ok ds -> names_ok (filter f ds).
Proof. unfold names_ok. intros f ds H. rewrite Forall_forall in *. intros x I. apply filter_In in I as [I _]. auto. Qed.

Lemma lk_new_inv : forall n ds l, Forall ctype_ok (n_comps n) -> names_ok ds -> lk_new n ds = (l, None) -> lk_inv l /\ lk_dels l = ds.
Proof.
  intros n ds l A F H. unfold lk_new in H. apply encode_inv in H; auto; [tauto|]. apply da_of_inv. exact A.
Qed.
Lemma lk_step_inv : forall op l l' r, lk_inv l -> lk_op_ok op -> lk_step sha256 op l = (l', Ok r) ->
  lk_inv l' /\ lk_effect op (map nkey (lk_dels l)) r (map nkey (lk_dels l')).
Proof.
  intros op l l' r (I & F & Sy) A H. destruct op as [ds|n|n|e|op]; cbn [lk_step lk_op_ok lk_effect] in *.
  - destruct (lk_set ds l) as [l1 [x|]] eqn:E; cbn [fst snd] in H; [discriminate|]. injection H as <- <-. unfold lk_set in E.
    apply encode_inv in E as (J & D & _); auto. split; [exact J|]. now rewrite D.
  - unfold lk_add in H. destruct (existsb (fun x => nm_equals x n) (lk_dels l)) eqn:X.
    + cbn [fst snd] in H. injection H as <- <-. split; [unfold lk_inv; auto|]. left. apply exists_in in X. auto.
    + destruct (lk_encodeContent (mkLink (lk_data l) (lk_dels l ++ [n]))) as [l1 [x|]] eqn:E; cbn [fst snd] in H; [discriminate|]. injection H as <- <-.
      apply encode_inv in E as (J & D & _); auto.
      * split; [exact J|]. right. split; [|split; [reflexivity|rewrite D, map_app; reflexivity]]. intro K. apply exists_in in K. congruence.
      * unfold names_ok. apply Forall_app. split; [exact F|]. constructor; [exact A|constructor].
  - unfold lk_remove in H. destruct (existsb (fun x => nm_equals x n) (lk_dels l)) eqn:X.
    + destruct (lk_encodeContent (mkLink (lk_data l) (filter (fun x => negb (nm_equals x n)) (lk_dels l)))) as [l1 [x|]] eqn:E; cbn [fst snd] in H; [discriminate|]. injection H as <- <-.
      apply encode_inv in E as (J & D & _); auto; [|now apply ok_filter]. split; [exact J|]. rewrite D, filter_remove. split; [reflexivity|]. left. apply exists_in in X. auto.
    + cbn [fst snd] in H. injection H as <- <-. split; [unfold lk_inv; auto|].
      assert (K : ~ In (nkey n) (map nkey (lk_dels l))) by (intro K; apply exists_in in K; congruence).
      split; [|right; auto]. symmetry. now apply notin_remove.
  - destruct (lk_decode e l) as [l1 [x|]] eqn:E; cbn [fst snd] in H; [discriminate|]. injection H as <- <-. apply lk_decode_sound in E as (D & Sy' & F').
    split; [|exists (lk_data l1); split; [apply D|exact Sy']]. split; [|split; assumption]. destruct A as [W M]. apply elem_wf_iff in W.
    eapply da_decoded_inv; [exact W|apply (D da_empty)|]. apply M. apply D.
  - destruct A as [A NC]. destruct (da_step sha256 op (lk_data l)) as [d [x|]] eqn:E; cbn [fst snd] in H; [discriminate|]. injection H as <- <-. cbn [lk_dels].
    split; [|reflexivity]. destruct (da_step_inv sha256 sha_len op _ _ I A E) as [I' Ef]. unfold lk_inv. cbn [lk_data lk_dels]. split; [exact I'|]. split; [exact F|].
    destruct Sy as [T (q & SQ & NI)].
    assert (K : mi_type (d_meta d) = mi_type (d_meta (lk_data l)) /\ c_val (d_content d) = c_val (d_content (lk_data l))).
    { unfold da_fields at 1 in Ef. cbn [da_effect] in Ef. destruct (mi_fields (d_meta (lk_data l))) as [[[t f] fc] ap] eqn:M. cbn [v_meta] in Ef. cbv zeta beta in Ef.
      unfold mi_fields in M. injection M as M1 M2 M3 M4.
      destruct op; try contradiction; cbn [da_effect] in Ef; unfold da_fields, mi_fields, ckey in Ef.
      all: try (destruct Ef as (z & Ef)); try (destruct Ef as (Ef & Ef')); injection Ef; intros; split; congruence. }
    destruct K as [K1 K2]. split; [congruence|]. exists q. split; [rewrite K2; exact SQ|exact NI].
Qed.
Lemma lk_run_inv : forall ops l, lk_inv l -> Forall lk_op_ok ops -> lk_clean sha256 ops l -> lk_inv (lk_run sha256 ops l).
Proof.
  induction ops as [|op ops IH]; intros l I F C; [exact I|]. apply Forall_cons_iff in F as [A F]. destruct C as [C1 C2]. unfold lk_run. cbn [fold_left]. apply IH; auto.
  destruct (lk_step sha256 op l) as [l' r] eqn:E. cbn [fst snd] in *. destruct C1 as [[b ->]| ->]; [|exact I]. eapply lk_step_inv; eauto.
Qed.
(* what any Link reached says; and what its wire says *)
Lemma lk_start_inv : forall l, lk_start l -> lk_inv l.
Proof.
  intros l [(n & ds & A & F & H)|(e & l0 & [W M] & H)]; [now apply lk_new_inv in H|]. apply lk_decode_sound in H as (D & Sy & F).
  split; [|split; assumption]. apply elem_wf_iff in W. eapply da_decoded_inv; [exact W|apply (D da_empty)|]. apply M. apply D.
Qed.
Lemma lk_travels : forall l d' e, lk_inv l -> da_encode (lk_data l) = (d', Ok e) -> forall l0, exists l2, lk_decode e l0 = (l2, None) /\
  map nkey (lk_dels l2) = map nkey (lk_dels l) /\ da_fields (lk_data l2) = da_fields (lk_data l).
Proof.
  intros l d' e (I & F & Sy) H l0. apply (da_encode_inv sha256) in H as ([O W] & Fd & We); auto. unfold wire_ok in W. rewrite We in W. destruct W as (_ & _ & D & _).
  destruct (D da_empty) as (d1 & D1 & F1). destruct (lk_decode_complete e l0 d1 (map nkey (lk_dels l)) D1) as (l2 & E & X & K).
  { eapply says_fields; [|exact Sy]. congruence. }
  exists l2. split; [exact E|]. split; [exact K|]. congruence.
Qed.

(* ---- removing with a reference into the list ---- *)
Lemma rm_kept : forall rest fuel a u kept g, (length rest <= fuel)%nat -> Forall (fun x => nm_equals x u = false) rest ->
  rm_loop fuel (length a) (length a + S (length kept)) (S (length a + S (length kept))) (a ++ (u :: kept) ++ g :: rest) = a ++ (u :: kept) ++ rest.
Proof.
  induction rest as [|x rest IH]; intros fuel a u kept g L F.
  - assert (Q : firstn (length a + S (length kept)) (a ++ (u :: kept) ++ [g]) = a ++ u :: kept).
    { rewrite firstn_app_2. f_equal. change (S (length kept)) with (length (u :: kept)). rewrite firstn_app, Nat.sub_diag, firstn_all. cbn [firstn]. apply app_nil_r. }
    rewrite app_nil_r. destruct fuel as [|fuel]; cbn [rm_loop]; [exact Q|].
    assert (nth_error (a ++ (u :: kept) ++ [g]) (S (length a + S (length kept))) = None) as ->; [|exact Q].
    apply nth_error_None. rewrite !app_length. cbn [length]. lia.
  - destruct fuel as [|fuel]; [cbn in L; lia|]. cbn [rm_loop]. apply Forall_cons_iff in F as [E F].
    assert (nth_error (a ++ (u :: kept) ++ g :: x :: rest) (S (length a + S (length kept))) = Some x) as ->.
    { rewrite nth_error_app2 by lia. replace (S (length a + S (length kept)) - length a)%nat with (S (S (length kept))) by lia. change (nth_error (kept ++ g :: x :: rest) (S (length kept)) = Some x).
      rewrite nth_error_app2 by lia. replace (S (length kept) - length kept)%nat with 1%nat by lia. reflexivity. }
    assert (nth_error (a ++ (u :: kept) ++ g :: x :: rest) (length a) = Some u) as ->.
    { rewrite nth_error_app2 by lia. rewrite Nat.sub_diag. reflexivity. }
    rewrite E.
    assert (Q : firstn (length a + S (length kept)) (a ++ (u :: kept) ++ g :: x :: rest) = a ++ u :: kept).
    { rewrite firstn_app_2. f_equal. change (S (length kept)) with (length (u :: kept)). rewrite firstn_app, Nat.sub_diag, firstn_all. cbn [firstn]. apply app_nil_r. }
    assert (R : skipn (S (length a + S (length kept))) (a ++ (u :: kept) ++ g :: x :: rest) = x :: rest).
    { replace (a ++ (u :: kept) ++ g :: x :: rest) with ((a ++ u :: kept ++ [g]) ++ x :: rest) by (rewrite <- !app_assoc; cbn [app]; rewrite <- app_assoc; reflexivity).
      rewrite skipn_app. replace (S (length a + S (length kept)) - length (a ++ u :: kept ++ [g]))%nat with O by (rewrite !app_length; cbn [length]; rewrite app_length; cbn [length]; lia).
      rewrite skipn_all2 by (rewrite !app_length; cbn [length]; rewrite app_length; cbn [length]; lia). reflexivity. }
    rewrite Q, R. replace ((a ++ u :: kept) ++ x :: x :: rest) with (a ++ (u :: kept ++ [x]) ++ x :: rest) by (cbn [app]; rewrite <- !app_assoc; reflexivity).
    replace (S (length a + S (length kept))) with (length a + S (length (kept ++ [x])))%nat by (rewrite app_length; cbn [length]; lia).
    rewrite IH; [|cbn in L; lia|exact F]. cbn [app]. rewrite <- !app_assoc. reflexivity.
Qed.
Lemma find_at_nodup : forall a v b, ~ In (nkey v) (map nkey a) -> find_at v (a ++ v :: b) = length a.
Proof.
  induction a as [|x a IH]; intros v b H; cbn [app find_at length].
  - assert (nm_equals v v = true) as -> by (now apply nm_equals_iff). reflexivity.
  - destruct (nm_equals x v) eqn:E; [apply nm_equals_iff in E; elim H; left; congruence|]. f_equal. apply IH. intro K. apply H. now right.
Qed.
Lemma rm_alias : forall ds i v, NoDup (map nkey ds) -> nth_error ds i = Some v -> let j := find_at v ds in
  map nkey (rm_loop (length ds) i j (S j) ds) = remove key_dec (nkey v) (map nkey ds) /\ incl (rm_loop (length ds) i j (S j) ds) ds.
Proof.
  intros ds i v ND H j. apply nth_error_split in H as (a & b & -> & Li). subst i. unfold j. clear j.
  rewrite map_app in ND. cbn [map] in ND. pose proof (NoDup_remove_2 _ _ _ ND) as NI. pose proof (NoDup_remove_1 _ _ _ ND) as ND'.
  rewrite find_at_nodup by (intro K; apply NI, in_or_app; auto).
  assert (E : rm_loop (length (a ++ v :: b)) (length a) (length a) (S (length a)) (a ++ v :: b) = a ++ b).
  { destruct b as [|x b].
    - rewrite app_nil_r, app_length. cbn [length]. rewrite Nat.add_1_r. cbn [rm_loop].
      assert (nth_error (a ++ [v]) (S (length a)) = None) as -> by (apply nth_error_None; rewrite app_length; cbn; lia).
      rewrite firstn_app, Nat.sub_diag, firstn_all. cbn [firstn]. apply app_nil_r.
    - replace (length (a ++ v :: x :: b)) with (S (length a + S (length b))) by (rewrite app_length; cbn; lia). cbn [rm_loop].
      assert (nth_error (a ++ v :: x :: b) (S (length a)) = Some x) as ->. { rewrite nth_error_app2 by lia. replace (S (length a) - length a)%nat with 1%nat by lia. reflexivity. }
      assert (nth_error (a ++ v :: x :: b) (length a) = Some v) as ->. { rewrite nth_error_app2 by lia. rewrite Nat.sub_diag. reflexivity. }
      assert (nm_equals x v = false) as ->. { destruct (nm_equals x v) eqn:Q; auto. apply nm_equals_iff in Q. elim NI. apply in_or_app. right. left. exact Q. }
      assert (firstn (length a) (a ++ v :: x :: b) = a) as ->. { rewrite firstn_app, Nat.sub_diag, firstn_all. cbn [firstn]. apply app_nil_r. }
      assert (skipn (S (length a)) (a ++ v :: x :: b) = x :: b) as ->. { rewrite skipn_app, skipn_all2 by lia. replace (S (length a) - length a)%nat with 1%nat by lia. reflexivity. }
      pose proof (rm_kept b (length a + S (length b)) a x [] x) as K. cbn [app length] in K. replace (length a + 1)%nat with (S (length a)) in K by lia.
      rewrite K; [reflexivity|lia|]. apply Forall_forall. intros y Iy. destruct (nm_equals y x) eqn:Q; auto. apply nm_equals_iff in Q.
      cbn [map] in ND'. apply NoDup_remove_2 in ND'. elim ND'. apply in_or_app. right. rewrite <- Q. now apply in_map. }
  rewrite E. split.
  - rewrite !map_app. cbn [map]. rewrite remove_app, remove_cons, <- remove_app, notin_remove; [reflexivity|]. exact NI.
  - intros y Iy. apply in_app_or in Iy. apply in_or_app. cbn. tauto.
Qed.
Lemma removeAt_inv : forall i l l' r, lk_inv l -> NoDup (map nkey (lk_dels l)) -> lk_removeAt i l = (l', Ok r) ->
  exists v, nth_error (lk_dels l) i = Some v /\ lk_inv l' /\ lk_effect (LRemove v) (map nkey (lk_dels l)) (Some r) (map nkey (lk_dels l')).
Proof.
  intros i l l' r (I & F & Sy) ND H. unfold lk_removeAt in H. destruct (nth_error (lk_dels l) i) as [v|] eqn:E; [|discriminate]. exists v. split; [reflexivity|].
  destruct (rm_alias _ _ _ ND E) as [K Inc]. destruct (lk_encodeContent _) as [l1 [x|]] eqn:Q in H; [discriminate|]. injection H as <- <-.
  apply encode_inv in Q as (J & D & _); auto.
  - split; [exact J|]. cbn [lk_effect]. rewrite D. split; [exact K|]. left. split; [|reflexivity]. apply in_map. now apply nth_error_In in E.
  - unfold names_ok in *. rewrite Forall_forall in *. intros y Iy. apply F. now apply Inc.
Qed.
End Hist.
