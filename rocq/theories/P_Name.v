(* Proofs about M_Name: encoding, URI, conventions, slices *)
From Coq Require Import Lia ZifyBool ZifyNat ZifyN.
From Verif Require Import Base BaseLemmas M_Tlv P_Tlv S_Tlv P_Block M_Str P_Str M_Name S_Name.

Lemma comp_eqb_eq : forall a b, comp_eqb a b = true <-> ckey a = ckey b.
Proof.
  intros a b. unfold comp_eqb, ckey. rewrite !andb_true_iff, !N.eqb_eq, bytes_eqb_eq. split.
  - intros [[-> _] ->]. reflexivity.
  - intros [= -> ->]. auto.
Qed.

Lemma comps_prefix_iff : forall a b, comps_prefix a b = true <-> exists s, map ckey b = map ckey a ++ s.
Proof.
  induction a as [|x a IH]; intros b; cbn [comps_prefix].
  - split; [intros _; exists (map ckey b); reflexivity|reflexivity].
  - destruct b as [|y b]; [split; [discriminate|intros [s H]; discriminate]|].
    rewrite andb_true_iff, comp_eqb_eq, IH. cbn [map app]. split.
    + intros [-> [s ->]]. eauto.
    + intros [s H]. injection H as H1 H2 H3. split; [unfold ckey; congruence|eauto].
Qed.

Lemma nm_equals_iff : forall a b, nm_equals a b = true <-> nkey a = nkey b.
Proof.
  intros a b. unfold nm_equals, nm_size, nkey.
  destruct (nlen (n_comps a) =? nlen (n_comps b)) eqn:E; cbn [negb].
  - rewrite comps_prefix_iff. split.
    + intros [s H]. assert (s = []).
      { apply (f_equal (@length _)) in H. rewrite app_length, !map_length in H.
        unfold nlen in E. destruct s; [auto|cbn in H; lia]. }
      subst. now rewrite app_nil_r in H.
    + intros ->. exists []. now rewrite app_nil_r.
  - split; [discriminate|]. intro H. apply (f_equal (@length _)) in H. rewrite !map_length in H.
    unfold nlen in E. lia.
Qed.

Lemma nm_isPrefixOf_iff : forall a b, nm_isPrefixOf a b = true <-> exists s, nkey b = nkey a ++ s.
Proof.
  intros a b. unfold nm_isPrefixOf, nm_size, nkey.
  destruct (nlen (n_comps b) <? nlen (n_comps a)) eqn:E.
  - split; [discriminate|]. intros [s H]. apply (f_equal (@length _)) in H.
    rewrite app_length, !map_length in H. unfold nlen in E. lia.
  - apply comps_prefix_iff.
Qed.

(* ---- wire ---- *)
Lemma alloc_ok : forall w w', alloc w = Ok w' -> w' = w /\ nlen w < two64.
Proof.
  unfold alloc, MAX_BUFFER, two64. intros w w'. destruct (_ <? nlen w) eqn:E; [discriminate|].
  intros [= <-]. split; auto. lia.
Qed.

Definition celem (c : comp) : elem := mkBlock (c_type c) (c_val c).

Lemma concat_comp_octets : forall cs, concat (map comp_octets cs) = concat (map e_wire (map celem cs)).
Proof.
  intro cs. rewrite map_map. f_equal. apply map_ext. intro c. unfold celem, comp_octets.
  now rewrite mkBlock_wire.
Qed.

Lemma comp_octets_In : forall c cs, In c cs -> nlen (c_val c) <= nlen (concat (map comp_octets cs)).
Proof.
  intros c cs H. assert (nlen (comp_octets c) <= nlen (concat (map comp_octets cs))).
  { apply nlen_concat_In, in_map_iff. eauto. }
  unfold comp_octets in *. rewrite tlv_enc_len in H0. lia.
Qed.

Lemma celem_wf : forall cs, Forall ctype_ok cs -> nlen (concat (map comp_octets cs)) < two64 ->
  Forall elem_wf (map celem cs).
Proof.
  intros cs T L. apply Forall_forall. intros e H. apply in_map_iff in H as (c & <- & Hc).
  rewrite Forall_forall in T. destruct (T c Hc). apply mkBlock_wf; auto.
  pose proof (comp_octets_In c cs Hc). lia.
Qed.

Lemma ckey_celem : forall c, ckey (comp_of_elem (celem c)) = ckey c.
Proof. reflexivity. Qed.

Lemma nkey_celem : forall cs, map ckey (map comp_of_elem (map celem cs)) = map ckey cs.
Proof. intro cs. rewrite !map_map. reflexivity. Qed.

Lemma comp_octets_spec : forall cs, Forall ctype_ok cs -> nlen (concat (map comp_octets cs)) < two64 ->
  is_tlv_seq (map ckey cs) (concat (map comp_octets cs)).
Proof.
  intros cs T L. apply is_tlv_seq_elems. exists (map celem cs). splits.
  - now apply celem_wf.
  - rewrite map_map. reflexivity.
  - apply concat_comp_octets.
Qed.

Lemma nm_octets_is : forall n, Forall ctype_ok (n_comps n) -> nlen (nm_octets n) < two64 ->
  exists v, is_tlv_seq (nkey n) v /\ is_tlv 7 v (nm_octets n).
Proof.
  intros n T L. unfold nm_octets in *. rewrite tlv_enc_len in L.
  exists (concat (map comp_octets (n_comps n))). split.
  - apply comp_octets_spec; auto. lia.
  - apply tlv_enc_is; try (unfold tName, two32; lia).
Qed.

Lemma nm_encode_fresh : forall cs, Forall ctype_ok cs -> nlen (nm_octets (nm_of cs)) <= MAX_BUFFER ->
  nm_encode (nm_of cs) = Ok (mkBlock tName (concat (map comp_octets cs)),
    mkName (map comp_of_elem (map celem cs)) (Some (mkBlock tName (concat (map comp_octets cs))))).
Proof.
  intros cs T L. unfold nm_encode. cbn [n_wire nm_of n_comps]. rewrite mkBlock_wire.
  unfold nm_octets in L. cbn [n_comps nm_of] in L.
  assert (E : alloc (tlv_enc tName (concat (map comp_octets cs))) = Ok (tlv_enc tName (concat (map comp_octets cs)))).
  { unfold alloc. destruct (MAX_BUFFER <? _) eqn:E; [lia|reflexivity]. }
  rewrite E. cbn [bind e_val mkBlock].
  rewrite tlv_enc_len in L. unfold MAX_BUFFER in L.
  assert (P : parseValue (concat (map comp_octets cs)) = Ok (map celem cs)).
  { apply parseValue_ok_iff. split; [|apply concat_comp_octets]. apply celem_wf; auto. unfold two64. lia. }
  rewrite P. reflexivity.
Qed.

Lemma nm_decode_iff : forall e n, nm_decode e = Ok n <->
  e_type e = 7 /\ exists es, parseValue (e_val e) = Ok es /\ n = mkName (map comp_of_elem es) (Some e).
Proof.
  intros e n. unfold nm_decode. change tName with 7. destruct (e_type e =? 7) eqn:E; cbn [negb].
  - split.
    + intro H. inv_bind H. injection H as <-. split; [lia|eauto].
    + intros [_ (es & -> & ->)]. reflexivity.
  - split; [discriminate|]. intros [H _]. lia.
Qed.

Lemma nm_decode_keys : forall e n, nm_decode e = Ok n ->
  e_type e = 7 /\ is_tlv_seq (nkey n) (e_val e) /\ n_wire n = Some e.
Proof.
  intros e n H. apply nm_decode_iff in H as (T & es & P & ->). splits; auto.
  apply parseValue_ok_iff in P as [W ->]. apply is_tlv_seq_elems. exists es. splits; auto.
  unfold nkey. cbn [n_comps]. rewrite map_map. reflexivity.
Qed.

Lemma nm_decode_accepts : forall e l, e_type e = 7 -> is_tlv_seq l (e_val e) ->
  exists n, nm_decode e = Ok n /\ nkey n = l.
Proof.
  intros e l T S. apply is_tlv_seq_elems in S as (es & W & -> & E).
  exists (mkName (map comp_of_elem es) (Some e)). split.
  - apply nm_decode_iff. split; auto. exists es. split; auto. rewrite E. now apply parseValue_concat.
  - unfold nkey. cbn [n_comps]. rewrite map_map. reflexivity.
Qed.

Lemma nm_decode_encode : forall e n, nm_decode e = Ok n -> nm_encode n = Ok (e, n).
Proof. intros e n H. apply nm_decode_keys in H as (_ & _ & W). unfold nm_encode. now rewrite W. Qed.

Lemma nm_round_trip : forall cs, Forall ctype_ok cs -> nlen (nm_octets (nm_of cs)) <= MAX_BUFFER ->
  exists e n' m, nm_encode (nm_of cs) = Ok (e, n') /\ e_wire e = nm_octets (nm_of cs) /\
    nm_equals n' (nm_of cs) = true /\
    blockFromWire (nm_octets (nm_of cs)) = Ok e /\ nm_decode e = Ok m /\ nm_equals m (nm_of cs) = true.
Proof.
  intros cs T L. rewrite nm_encode_fresh by auto.
  remember (mkBlock tName (concat (map comp_octets cs))) as e eqn:He.
  assert (L2 : nlen (concat (map comp_octets cs)) < two64).
  { unfold nm_octets in L. cbn [n_comps nm_of] in L. rewrite tlv_enc_len in L. unfold MAX_BUFFER, two64 in *. lia. }
  assert (Ew : e_wire e = nm_octets (nm_of cs)) by (subst e; now rewrite mkBlock_wire).
  assert (We : elem_wf e) by (subst e; apply mkBlock_wf; unfold tName, two32; auto; lia).
  exists e, (mkName (map comp_of_elem (map celem cs)) (Some e)), (mkName (map comp_of_elem (map celem cs)) (Some e)).
  splits; auto.
  - apply nm_equals_iff. unfold nkey. cbn [n_comps nm_of]. apply nkey_celem.
  - rewrite <- Ew. now apply blockFromWire_wf.
  - apply nm_decode_iff. split; [now subst e|]. exists (map celem cs). split; auto.
    subst e. cbn [e_val mkBlock]. rewrite concat_comp_octets. apply parseValue_concat. now apply celem_wf.
  - apply nm_equals_iff. unfold nkey. cbn [n_comps nm_of]. apply nkey_celem.
Qed.

(* ---- histories ---- *)
Definition nm_inv (n : name) : Prop :=
  Forall ctype_ok (n_comps n) /\
  match n_wire n with Some e => e_type e = 7 /\ is_tlv_seq (nkey n) (e_val e) | None => True end.

Lemma nm_index_spec : forall i n j, nm_index i n = Some j -> at_index i (length (n_comps n)) j.
Proof.
  intros i n j. unfold nm_index, nm_size, at_index, nlen.
  destruct (i <? 0)%Z eqn:E; cbv zeta; destruct (_ || _) eqn:E2; try discriminate; intros [= <-]; lia.
Qed.

Lemma split_nth : forall A (l : list A) j, (j < length l)%nat ->
  exists a x b, l = a ++ x :: b /\ length a = j /\ firstn j l = a /\ skipn (S j) l = b.
Proof.
  intros A l. induction l as [|y l IH]; intros j H; [cbn in H; lia|].
  destruct j as [|j].
  - exists [], y, l. auto.
  - destruct (IH j) as (a & x & b & -> & Ha & Hf & Hs); [cbn in H; lia|].
    exists (y :: a), x, b. cbn. splits; auto; now f_equal.
Qed.

Lemma comp_of_elem_ok : forall es, Forall elem_wf es -> Forall ctype_ok (map comp_of_elem es).
Proof.
  intros es W. rewrite Forall_map. eapply Forall_impl; [|exact W]. intros e (H0 & H1 & _). split; auto.
Qed.

Lemma nm_encode_inv : forall n e n', nm_inv n -> nm_encode n = Ok (e, n') ->
  nm_inv n' /\ nkey n' = nkey n /\ n_wire n' = Some e.
Proof.
  intros n e n' I H. unfold nm_encode in H. destruct (n_wire n) as [w|] eqn:W.
  - injection H as <- <-. auto.
  - inv_bind H. apply alloc_ok in E as [_ L]. destruct I as [T _].
    rewrite mkBlock_wire, tlv_enc_len in L.
    assert (P : parseValue (e_val (mkBlock tName (concat (map comp_octets (n_comps n))))) = Ok (map celem (n_comps n))).
    { cbn [e_val mkBlock]. rewrite concat_comp_octets. apply parseValue_concat. apply celem_wf; auto. lia. }
    rewrite P in H. cbn [bind] in H. injection H as <- <-.
    assert (K : nkey (mkName (map comp_of_elem (map celem (n_comps n))) (Some (mkBlock tName (concat (map comp_octets (n_comps n)))))) = nkey n).
    { unfold nkey. cbn [n_comps]. apply nkey_celem. }
    splits; auto. split; cbn [n_comps n_wire].
    + apply comp_of_elem_ok, celem_wf; auto. lia.
    + split; [reflexivity|]. rewrite K. cbn [e_val mkBlock]. apply comp_octets_spec; auto. lia.
Qed.

Lemma nm_appendName_comps : forall m n, n_comps (nm_appendName m n) = n_comps n ++ n_comps m /\
  (n_wire (nm_appendName m n) = None \/ nm_appendName m n = n).
Proof.
  intros [cs w] n. unfold nm_appendName. cbn [n_comps]. revert n.
  induction cs as [|c cs IH]; intro n; cbn [fold_left].
  - rewrite app_nil_r. auto.
  - destruct (IH (nm_append c n)) as [E1 E2]. rewrite E1. unfold nm_append in *. cbn [n_comps] in *.
    rewrite <- app_assoc. split; auto. left. destruct E2 as [E2|E2]; auto. now rewrite E2.
Qed.

Lemma nm_step_ok : forall op n n', nm_inv n -> op_typed op -> nm_step op n = Ok n' ->
  nm_inv n' /\ key_step op (nkey n) (nkey n').
Proof.
  intros op n n' I T H. pose proof I as [It Iw]. destruct op as [c|m|i c|i| | |e|]; cbn [nm_step op_typed] in *.
  - injection H as <-. split.
    + split; cbn; auto. apply Forall_app; auto.
    + unfold nkey, nm_append. cbn [n_comps]. rewrite map_app. constructor.
  - injection H as <-. destruct (nm_appendName_comps m n) as [E1 E2]. split.
    + destruct E2 as [E2|E2]; [|now rewrite E2]. split; [rewrite E1; now apply Forall_app|]. now rewrite E2.
    + unfold nkey at 2. rewrite E1, map_app. constructor.
  - unfold nm_set in H. destruct (nm_index i n) as [j|] eqn:Ei; [|discriminate].
    assert (H' : forall A (x y : A), Ok x = Ok y -> x = y) by congruence. apply H' in H. clear H'. subst n'.
    apply nm_index_spec in Ei. pose proof (proj1 Ei) as Lj.
    destruct (split_nth _ _ _ Lj) as (a & x & b & E & Ha & -> & ->). rewrite E in *. split.
    + split; cbn [n_comps n_wire]; auto. apply Forall_app in It as [Ia Ib]. inversion Ib; subst.
      apply Forall_app; auto.
    + unfold nkey. cbn [n_comps]. rewrite E, !map_app. cbn [map]. apply ks_set.
      rewrite app_length in *. cbn [length] in *. rewrite !map_length. subst j. exact Ei.
  - unfold nm_erase in H. destruct (nm_index i n) as [j|] eqn:Ei; [|discriminate].
    assert (H' : forall A (x y : A), Ok x = Ok y -> x = y) by congruence. apply H' in H. clear H'. subst n'.
    apply nm_index_spec in Ei. pose proof (proj1 Ei) as Lj.
    destruct (split_nth _ _ _ Lj) as (a & x & b & E & Ha & -> & ->). rewrite E in *. split.
    + split; cbn [n_comps n_wire]; auto. apply Forall_app in It as [Ia Ib]. inversion Ib; subst.
      apply Forall_app; auto.
    + unfold nkey. cbn [n_comps]. rewrite E, !map_app. cbn [map]. apply ks_erase.
      rewrite app_length in *. cbn [length] in *. rewrite !map_length. subst j. exact Ei.
  - injection H as <-. split; [split; constructor|]. constructor.
  - inv_bind H. destruct a as [e m]. injection H as <-. apply nm_encode_inv in E as (I' & K & _); auto.
    cbn [snd]. rewrite K. split; [auto|constructor].
  - pose proof (nm_decode_keys _ _ H) as (T7 & S & W). split; [|now constructor].
    apply nm_decode_iff in H as (_ & es & P & ->). split; cbn [n_comps n_wire]; auto.
    apply parseValue_ok_iff in P as [Wf _]. now apply comp_of_elem_ok.
  - unfold nm_deepCopy in H. inv_bind H. destruct a as [e m]. injection H as <-.
    apply nm_encode_inv in E as (I' & K & _); [|split; cbn; auto]. cbn [snd]. rewrite K.
    split; [auto|]. unfold nkey at 2. cbn [n_comps]. constructor.
Qed.

Lemma nm_run_ok : forall ops n n', nm_inv n -> Forall op_typed ops -> nm_run ops n = Ok n' ->
  nm_inv n' /\ key_run ops (nkey n) (nkey n').
Proof.
  induction ops as [|op ops IH]; intros n n' I T H; cbn [nm_run] in H.
  - injection H as <-. split; [auto|constructor].
  - inv_bind H. inversion T; subst. apply nm_step_ok in E as [I1 K1]; auto.
    apply IH in H as [I2 K2]; auto. split; auto. econstructor; eauto.
Qed.

Lemma nm_history : forall ops n, Forall op_typed ops -> nm_run ops nm_empty = Ok n ->
  key_run ops [] (nkey n) /\
  forall e n', nm_encode n = Ok (e, n') ->
    nkey n' = nkey n /\ exists m, nm_decode e = Ok m /\ nkey m = nkey n.
Proof.
  intros ops n T H. apply nm_run_ok in H as [I K]; [|split; constructor|auto]. split; auto.
  intros e n' E. apply nm_encode_inv in E as ([_ I'] & K' & W); auto. split; auto.
  rewrite W in I'. destruct I' as [T7 S]. rewrite K' in S. eapply nm_decode_accepts; eauto.
Qed.
