(* Proofs about certificate bundles. *)
From Coq Require Import Lia ZifyBool ZifyNat ZifyN.
From Verif Require Import Base BaseLemmas S_Tlv M_Tlv M_Str P_Tlv P_Str M_Name S_Name P_Name P_NameOrder P_Block P_NameUri M_Packet S_Packet P_Packet M_Ims P_Ims M_Pib P_Pib P_IntPolicy M_Bundle S_Bundle.
Open Scope N_scope.
Open Scope list_scope.

(* ---- certificates ---- *)
Lemma key_eqb_KEY : forall k, key_eqb k KEYC = true <-> k = (8, str "KEY").
Proof. intro k. unfold KEYC. apply key_eqb_eq. Qed.
Lemma valid_cert_name : forall n, isValidCertName n = true <-> exists p a b v, n = p ++ [(8, str "KEY"); a; b; v].
Proof.
  intro n. unfold isValidCertName, from_end. split.
  - intro H. destruct (rev n) as [|v [|b [|a [|k r]]]] eqn:E; try discriminate.
    cbn [nth_error isKEY] in H. apply key_eqb_KEY in H. subst k.
    exists (rev r), a, b, v. rewrite <- (rev_involutive n), E. cbn [rev]. rewrite <- !app_assoc. reflexivity.
  - intros (p & a & b & v & ->). rewrite rev_app_distr. cbn [rev app nth_error isKEY]. apply key_eqb_KEY. reflexivity.
Qed.
Lemma cert_of_iff : forall e c, cert_of e = Ok c <-> is_cert e c.
Proof.
  intros e c. unfold cert_of, is_cert. destruct (da_decode e da_empty) as [d [x|]] eqn:E.
  - split; [discriminate|]. intros (H & _). discriminate.
  - split.
    + intro H. destruct (isValidCertName _) eqn:V; [|discriminate]. destruct (mi_type _ =? 2) eqn:T; [|discriminate].
      destruct (mi_getFreshnessPeriod _ <=? 0)%Z eqn:F; [discriminate|]. cbn [negb] in H. injection H as <-.
      splits; auto; [now apply valid_cert_name|lia|].
      unfold mi_getFreshnessPeriod in F. destruct (MAX_MS <? _)%Z eqn:M in F; lia.
    + intros (H & V & T & F). injection H as ->. apply valid_cert_name in V. rewrite V, T. cbn [negb N.eqb Pos.eqb].
      destruct (mi_getFreshnessPeriod _ <=? 0)%Z eqn:G; auto. exfalso.
      unfold mi_getFreshnessPeriod in G. unfold MAX_MS in G. destruct (_ <? _)%Z eqn:M in G; lia.
Qed.

(* ---- bundles ---- *)
Lemma bfw_buffer : forall w1 w2 e, blockFromWire w1 = Ok e -> fromBuffer (w1 ++ w2) = Some (e, w2).
Proof. intros w1 w2 e H. apply blockFromWire_inv in H as (W & ->). now apply fromBuffer_wf. Qed.
Lemma bfw_split : forall w1 w2 e w1' w2' e', blockFromWire w1 = Ok e -> blockFromWire w1' = Ok e' -> w1 ++ w2 = w1' ++ w2' -> e = e' /\ w2 = w2'.
Proof.
  intros w1 w2 e w1' w2' e' H H' E. pose proof (bfw_buffer w1 w2 e H) as A. pose proof (bfw_buffer w1' w2' e' H') as B.
  rewrite E, B in A. now injection A as -> ->.
Qed.
Lemma is_cert_fun : forall e c c', is_cert e c -> is_cert e c' -> c = c'.
Proof. intros e c c' (A & _) (B & _). rewrite A in B. now injection B. Qed.

Lemma bundle_fun : forall w cs r, bundle w cs r -> forall cs' r', bundle w cs' r' -> cs = cs' /\ r = r'.
Proof.
  intros w cs r B. induction B as [w N|w1 w2 e c cs r F T C B IH|w1 w2 e cs r F T C B IH|w1 w2 e F T C|w1 w2 e F T C]; intros cs' r' B'.
  - inversion B'; subst; auto; exfalso; eauto.
  - inversion B' as [w N E|v1 v2 e' c' cs1 r1 F' T' C' B1 E|v1 v2 e' cs1 r1 F' T' C' B1 E|v1 v2 e' F' T' C' E|v1 v2 e' F' T' C' E]; subst.
    + exfalso. eauto.
    + destruct (bfw_split _ _ _ _ _ _ F' F E) as (-> & ->). rewrite (is_cert_fun _ _ _ C C'). destruct (IH _ _ B1) as (-> & ->). auto.
    + destruct (bfw_split _ _ _ _ _ _ F' F E) as (-> & ->). contradiction.
    + destruct (bfw_split _ _ _ _ _ _ F' F E) as (-> & ->). contradiction.
    + destruct (bfw_split _ _ _ _ _ _ F' F E) as (-> & ->). exfalso. eapply C'; eauto.
  - inversion B' as [w N E|v1 v2 e' c' cs1 r1 F' T' C' B1 E|v1 v2 e' cs1 r1 F' T' C' B1 E|v1 v2 e' F' T' C' E|v1 v2 e' F' T' C' E]; subst.
    + exfalso. eauto.
    + destruct (bfw_split _ _ _ _ _ _ F' F E) as (-> & ->). contradiction.
    + destruct (bfw_split _ _ _ _ _ _ F' F E) as (-> & ->). auto.
    + destruct (bfw_split _ _ _ _ _ _ F' F E) as (-> & ->). contradiction.
    + destruct (bfw_split _ _ _ _ _ _ F' F E) as (-> & ->). contradiction.
  - inversion B' as [w N E|v1 v2 e' c' cs1 r1 F' T' C' B1 E|v1 v2 e' cs1 r1 F' T' C' B1 E|v1 v2 e' F' T' C' E|v1 v2 e' F' T' C' E]; subst; auto.
    + exfalso. eauto.
    + destruct (bfw_split _ _ _ _ _ _ F' F E) as (-> & ->). contradiction.
    + destruct (bfw_split _ _ _ _ _ _ F' F E) as (-> & ->). contradiction.
  - inversion B' as [w N E|v1 v2 e' c' cs1 r1 F' T' C' B1 E|v1 v2 e' cs1 r1 F' T' C' B1 E|v1 v2 e' F' T' C' E|v1 v2 e' F' T' C' E]; subst; auto.
    + exfalso. eauto.
    + destruct (bfw_split _ _ _ _ _ _ F' F E) as (-> & ->). exfalso. eapply C; eauto.
    + destruct (bfw_split _ _ _ _ _ _ F' F E) as (-> & ->). contradiction.
Qed.
Lemma bundle_app : forall w cs r, bundle w cs r -> forall b, r = Waiting b -> forall v cs' r', bundle (b ++ v) cs' r' -> bundle (w ++ v) (cs ++ cs') r'.
Proof.
  intros w cs r B. induction B; intros b0 Hr v cs' r' B'; try discriminate.
  - injection Hr as <-. exact B'.
  - rewrite <- app_assoc. cbn [app]. eapply bun_cert; eauto.
  - rewrite <- app_assoc. eapply bun_skip; eauto.
Qed.
Lemma bundle_broken_app : forall w cs r, bundle w cs r -> r = Broken -> forall v, bundle (w ++ v) cs Broken.
Proof.
  intros w cs r B. induction B; intros Hr v; try discriminate; rewrite <- app_assoc.
  - eapply bun_cert; eauto.
  - eapply bun_skip; eauto.
  - eapply bun_critical; eauto.
  - eapply bun_nocert; eauto.
Qed.

(* ---- decoder ---- *)
Lemma loop_sound : forall fuel buf cs b r, (length buf < fuel)%nat -> bd_loop fuel buf = (cs, b, r) ->
  bundle buf cs (match r with None => Waiting b | Some _ => Broken end).
Proof.
  induction fuel as [|fuel IH]; [lia|]. intros buf cs b r L H. cbn [bd_loop] in H.
  destruct buf as [|x l] eqn:Eb.
  - injection H as <- <- <-. apply bun_wait. intros w1 w2 e E F. symmetry in E. apply app_eq_nil in E as (-> & _). discriminate.
  - rewrite <- Eb in *. clear x l Eb. destruct (fromBuffer buf) as [[e rest]|] eqn:E.
    + pose proof (fromBuffer_inv _ _ _ E) as (W & ->). pose proof (blockFromWire_wf e W) as F. pose proof (elem_wf_wire_len e W) as WL.
      assert (LR : (length rest < fuel)%nat) by (rewrite app_length in L; unfold nlen in WL; lia).
      unfold tData in H. destruct (e_type e =? 6) eqn:T.
      * apply N.eqb_eq in T. destruct (cert_of e) as [c|x] eqn:C.
        -- destruct (bd_loop fuel rest) as [[cs1 b1] r1] eqn:R. injection H as <- <- <-.
           eapply bun_cert; eauto. now apply cert_of_iff.
        -- injection H as <- <- <-. eapply bun_nocert; eauto. intros c Hc. apply cert_of_iff in Hc. congruence.
      * apply N.eqb_neq in T. destruct (isCriticalType (e_type e)) eqn:C.
        -- injection H as <- <- <-. eapply bun_critical; eauto. now apply isCritical_iff.
        -- eapply bun_skip; eauto. now apply isCritical_false.
    + injection H as <- <- <-. apply bun_wait. intros w1 w2 e -> F. rewrite (bfw_buffer _ w2 _ F) in E. discriminate.
Qed.
Lemma bundle_total : forall w, exists cs r, bundle w cs r.
Proof.
  intro w. destruct (bd_loop (S (length w)) w) as [[cs b] r] eqn:E. do 2 eexists. eapply loop_sound; [|exact E]. lia.
Qed.
Lemma run_broken : forall ws d, bd_err d = true -> fst (bd_run ws d) = d /\ Forall (fun p => p = ([], Some ETlv)) (snd (bd_run ws d)) /\ length (snd (bd_run ws d)) = length ws.
Proof.
  induction ws as [|w ws IH]; intros d H; cbn [bd_run]; [repeat split; constructor|].
  unfold bd_append. rewrite H. destruct (bd_run ws d) as [d2 l] eqn:R. destruct (IH d H) as (A & B & C). rewrite R in A, B, C.
  cbn [fst snd] in *. repeat split; auto. cbn [length]. now rewrite C.
Qed.
Lemma given_empty : forall l : list (list data * option err), Forall (fun p => p = ([], Some ETlv)) l -> given l = [].
Proof. intros l H. induction H as [|p l Hp H IH]; auto. unfold given in *. cbn [map concat]. rewrite Hp. exact IH. Qed.
(* what a run over segments shows, from what its bundle says *)
Definition shown (d : bdec) (l : list (list data * option err)) (r : rest_of) : Prop :=
  match r with
  | Waiting b => d = mkBd b false /\ Forall (fun p => snd p = None) l
  | Broken => bd_err d = true /\ exists l1 cs x l2, l = l1 ++ (cs, Some x) :: l2 /\ Forall (fun p => snd p = None) l1 /\ Forall (fun p => p = ([], Some ETlv)) l2
  end.
Lemma run_bundle : forall ws buf d l, (forall w1 w2 e, buf = w1 ++ w2 -> blockFromWire w1 = Ok e -> False) -> bd_run ws (mkBd buf false) = (d, l) ->
  length l = length ws /\ exists r, bundle (buf ++ concat ws) (given l) r /\ shown d l r.
Proof.
  induction ws as [|w ws IH]; intros buf d l NB H; cbn [bd_run] in H.
  - injection H as <- <-. split; auto. exists (Waiting buf). cbn [concat]. rewrite app_nil_r. split; [now apply bun_wait|]. split; auto.
  - unfold bd_append in H. cbn [bd_err bd_buf] in H. destruct (bd_loop _ (buf ++ w)) as [[cs b] r] eqn:E.
    apply loop_sound in E; [|lia]. destruct r as [x|].
    + pose proof (run_broken ws (mkBd b true) eq_refl) as (A & B & C). destruct (bd_run ws (mkBd b true)) as [d2 l2] eqn:R. cbn [fst snd] in *.
      injection H as <- <-. split; [cbn [length]; now rewrite C|]. exists Broken. split.
      * unfold given. cbn [map concat fst]. fold (given l2). rewrite (given_empty l2 B), app_nil_r, app_assoc. eapply bundle_broken_app; eauto.
      * split; [now rewrite A|]. exists [], cs, x, l2. repeat split; auto.
    + destruct (bd_run ws (mkBd b false)) as [d2 l2] eqn:R. injection H as <- <-.
      assert (NB2 : forall w1 w2 e, b = w1 ++ w2 -> blockFromWire w1 = Ok e -> False).
      { clear -E. remember (Waiting b) as r eqn:Hr. induction E; try discriminate; try exact (IHE Hr). injection Hr as <-. assumption. }
      destruct (IH b d2 l2 NB2 R) as (L & r & Br & Sh). split; [cbn [length]; now rewrite L|]. exists r. split.
      * unfold given. cbn [map concat fst]. fold (given l2). rewrite app_assoc. eapply bundle_app; eauto.
      * destruct r as [b2|]; cbn [shown] in *.
        -- destruct Sh as (-> & Sh). split; auto.
        -- destruct Sh as (Eb & l1 & cs1 & x & l3 & -> & A & B). split; auto. exists ((cs, None) :: l1), cs1, x, l3. repeat split; auto.
Qed.
Lemma nil_waits : forall w1 w2 e, [] = w1 ++ w2 -> blockFromWire w1 = Ok e -> False.
Proof. intros w1 w2 e E F. symmetry in E. apply app_eq_nil in E as (-> & _). discriminate. Qed.

(* ---- fetcher: names ---- *)
Lemma prefix_k : forall n a b k, n_comps n = a ++ b -> nm_size n < 2 ^ 64 -> k = (- Z.of_nat (length b))%Z -> b <> [] -> n_comps (nm_getPrefix k n) = a.
Proof.
  intros n a b k E L -> Nb. assert (Lb : (0 < length b)%nat) by (destruct b; [easy|cbn [length]; lia]).
  rewrite nm_getPrefix_slice; [|exact L|unfold nm_size, nlen in *; rewrite E, app_length in *; unfold two64; lia].
  rewrite E. unfold slice_start. rewrite app_length. destruct (_ <? 0)%Z eqn:K; [|lia].
  match goal with |- firstn ?k _ = _ => replace k with (length a) by lia end. rewrite firstn_app, Nat.sub_diag, firstn_all. cbn [firstn]. apply app_nil_r.
Qed.
Lemma digest_iff : forall c, isImplicitSha256Digest c = true <-> c_type c = 1 /\ nlen (c_val c) = 32.
Proof. intro c. unfold isImplicitSha256Digest, tImplicitSha256DigestComponent. rewrite andb_true_iff, !N.eqb_eq. tauto. Qed.
Lemma seg_not_digest : forall dconv c, isKind dconv KSegment c = true -> c_type c = 1 -> False.
Proof. intros dconv c H T. unfold isKind in H. rewrite T in H. cbn in H. rewrite !andb_false_r in H. discriminate. Qed.
Lemma snoc_or : forall (A : Type) (l : list A), l = [] \/ exists a x, l = a ++ [x].
Proof. intros A l. destruct (rev l) as [|x r] eqn:E; [left|right; exists (rev r), x]; rewrite <- (rev_involutive l), E; reflexivity. Qed.
Lemma snoc_inj : forall (A : Type) (a b : list A) x y, a ++ [x] = b ++ [y] -> a = b /\ x = y.
Proof. intros A a b x y H. now apply app_inj_tail in H. Qed.
Lemma derive_spec : forall dconv n, n_comps n <> [] -> nm_size n < 2 ^ 64 -> exists n' base,
  bf_derive dconv n = Ok n' /\ bundle_base dconv (n_comps n) base /\ nkey n' = map ckey base ++ [(8, str "_BUNDLE"); (8, [x00])].
Proof.
  intros dconv n NE L. unfold bf_derive. destruct (snoc_or _ (n_comps n)) as [E|(a & x & E)]; [contradiction|].
  destruct (nm_at_back n a x [] (-1) E eq_refl) as (-> & _). cbn [bind].
  assert (P1 : n_comps (nm_getPrefix (-1) n) = a) by (apply (prefix_k n a [x] (-1) E L eq_refl); discriminate).
  assert (Fin : forall base b, n_comps b = base -> bundle_base dconv (n_comps n) base -> exists n' base0,
    (let! z := fromNumber 0 tGenericNameComponent in Ok (nm_append z (nm_append (comp_ofString (str "_BUNDLE")) b))) = Ok n' /\
    bundle_base dconv (n_comps n) base0 /\ nkey n' = map ckey base0 ++ [(8, str "_BUNDLE"); (8, [x00])]).
  { intros base b Eb B. destruct (fromNumber 0 tGenericNameComponent) as [z|] eqn:Z; [|discriminate Z].
    cbn [bind]. eexists. exists base. split; [reflexivity|]. split; [exact B|].
    assert (Kz : ckey z = (8, [x00])) by (vm_compute in Z; injection Z as <-; reflexivity).
    unfold nkey, nm_append. cbn [n_comps]. rewrite Eb, !map_app, <- app_assoc. cbn [map app]. rewrite Kz. reflexivity. }
  destruct (isImplicitSha256Digest x) eqn:D.
  - apply digest_iff in D. unfold nm_size, nlen. rewrite E, app_length. cbn [length].
    destruct (snoc_or _ a) as [Ea|(a' & y & Ea)].
    + assert (G : (2 <=? N.of_nat (length a + 1)) = false) by (rewrite Ea; reflexivity). rewrite G. cbn [bind].
      rewrite <- E. apply (Fin []); [rewrite P1; exact Ea|]. rewrite E, Ea. exists [], [x]. unfold opt_seg, opt_digest. splits; auto; [right; eauto| |discriminate].
      intros _ b c H. destruct b; discriminate.
    + destruct (2 <=? N.of_nat (length a + 1)) eqn:G; [|rewrite Ea, app_length in G; cbn [length] in G; lia].
      assert (E2 : n_comps n = a' ++ [y; x]) by (rewrite E, Ea, <- app_assoc; reflexivity).
      destruct (nm_at_back n a' y [x] (-2) E2 eq_refl) as (_ & ->). cbn [bind]. rewrite <- E.
      destruct (isKind dconv KSegment y) eqn:K.
      * apply (Fin a'); [apply (prefix_k n a' [y; x] (-2) E2 L eq_refl); discriminate|]. rewrite E2. exists [y], [x]. unfold opt_seg, opt_digest. splits; auto; try discriminate; right; eauto.
      * apply (Fin a); [exact P1|]. rewrite E. exists [], [x]. unfold opt_seg, opt_digest. splits; auto; [right; eauto| |discriminate].
        intros _ b c H. rewrite Ea in H. apply snoc_inj in H as (_ & <-). exact K.
  - destruct (isKind dconv KSegment x) eqn:K; cbn [bind].
    + apply (Fin a); [exact P1|]. rewrite E. exists [x], []. unfold opt_seg, opt_digest. splits; auto; try discriminate. right; eauto.
    + apply (Fin (n_comps n)); [reflexivity|]. exists [], []. unfold opt_seg, opt_digest. rewrite !app_nil_r. splits; auto.
      * intros _ b c H. rewrite E in H. apply snoc_inj in H as (_ & <-). exact K.
      * intros _ _ b c H Q. rewrite E in H. apply snoc_inj in H as (_ & <-). apply digest_iff in Q. congruence.
Qed.
Lemma base_fun : forall dconv n b1 b2, bundle_base dconv n b1 -> bundle_base dconv n b2 -> b1 = b2.
Proof.
  intros dconv n b1 b2 (s & d & E & S & D & Q1 & Q2) (s' & d' & E' & S' & D' & Q1' & Q2'). rewrite E' in E. clear E' n.
  destruct D as [->|(x & -> & Dx)], D' as [->|(x' & -> & Dx')], S as [->|(y & -> & Sy)], S' as [->|(y' & -> & Sy')];
    cbn [app] in E; rewrite ?app_nil_r in E; auto.
  - rewrite (Q1 eq_refl b2 y' (eq_sym E)) in Sy'. discriminate.
  - rewrite (Q1' eq_refl b1 y E) in Sy. discriminate.
  - now apply snoc_inj in E as (-> & _).
  - destruct (Q2 eq_refl eq_refl b2 x' (eq_sym E)). exact Dx'.
  - destruct (Q2 eq_refl eq_refl (b2 ++ [y']) x'); [rewrite <- app_assoc; exact (eq_sym E)|exact Dx'].
  - apply snoc_inj in E as (_ & ->). destruct (seg_not_digest _ _ Sy). apply Dx'.
  - change [y'; x'] with ([y'] ++ [x']) in E. rewrite app_assoc in E. apply snoc_inj in E as (_ & ->). destruct (seg_not_digest _ _ Sy). apply Dx'.
  - destruct (Q2' eq_refl eq_refl b1 x E). exact Dx.
  - apply snoc_inj in E as (_ & ->). destruct (seg_not_digest _ _ Sy'). apply Dx.
  - destruct (Q2' eq_refl eq_refl (b1 ++ [y]) x); [rewrite <- app_assoc; exact E|exact Dx].
  - change [y; x] with ([y] ++ [x]) in E. rewrite app_assoc in E. apply snoc_inj in E as (_ & <-). destruct (seg_not_digest _ _ Sy'). apply Dx.
  - now apply snoc_inj in E as (-> & _).
  - change [y'; x'] with ([y'] ++ [x']) in E. rewrite app_assoc in E. apply snoc_inj in E as (E & _).
    rewrite (Q1 eq_refl b2 y' (eq_sym E)) in Sy'. discriminate.
  - change [y; x] with ([y] ++ [x]) in E. rewrite app_assoc in E. apply snoc_inj in E as (E & _).
    rewrite (Q1' eq_refl b1 y E) in Sy. discriminate.
  - change [y'; x'] with ([y'] ++ [x']) in E. change [y; x] with ([y] ++ [x]) in E. rewrite !app_assoc in E. apply snoc_inj in E as (E & _). now apply snoc_inj in E as (-> & _).
Qed.

(* ---- fetcher: next segment ---- *)
Lemma inc_value : forall v ov w, inc_octets v = (ov, w) -> length w = length v /\
  (ov = true -> be_val v + 1 = 256 ^ nlen v /\ be_val w = 0) /\ (ov = false -> be_val w = be_val v + 1).
Proof.
  induction v as [|b v IH]; intros ov w H; cbn [inc_octets] in H.
  - injection H as <- <-. splits; auto. discriminate.
  - destruct (inc_octets v) as [ov' w'] eqn:E. destruct (IH _ _ eq_refl) as (L & T & F). pose proof (bn_lt b) as Bb.
    assert (Ln : nlen w' = nlen v) by (unfold nlen; now rewrite L).
    destruct ov'.
    + destruct (T eq_refl) as (V & W). injection H as <- <-. cbn [length]. rewrite !be_val_cons, Ln, W, bn_nb, N.mod_mod by lia.
      rewrite nlen_cons. replace (256 ^ (1 + nlen v)) with (256 * 256 ^ nlen v) by (rewrite N.pow_add_r; lia). rewrite <- V.
      splits; [now rewrite L| |]; intro H.
      * assert (bn b = 255) as ->. { apply N.eqb_eq in H. destruct (N.eq_dec (bn b) 255); auto. rewrite N.mod_small in H by lia. lia. }
        split; [lia|]. reflexivity.
      * rewrite N.mod_small; [lia|]. destruct (N.eq_dec (bn b) 255) as [B|B]; [rewrite B in H; discriminate H|lia].
    + injection H as <- <-. cbn [length]. rewrite !be_val_cons, Ln, (F eq_refl). splits; [now rewrite L|discriminate|lia].
Qed.
Lemma succ_seg : forall c s, c_type c = 50 -> big_endian (c_val c) = s -> s + 1 < 256 ^ nlen (c_val c) ->
  exists c', comp_getSuccessor c = Ok c' /\ c_type c' = 50 /\ nlen (c_val c') = nlen (c_val c) /\ big_endian (c_val c') = s + 1 /\ (nlen (c_val c) < two64 -> comp_shortest c').
Proof.
  intros c s T B L. rewrite big_endian_be_val in B. unfold comp_getSuccessor, getSuccessorImpl. destruct (inc_octets (c_val c)) as [ov w] eqn:E.
  pose proof (inc_value _ _ _ E) as (Lw & Ht & Hf). rewrite T. cbn [ctype_of].
  destruct ov; [destruct (Ht eq_refl); lia|]. exists (comp_of_elem (mkBlock 50 w)). cbn [comp_of_elem c_type c_val mkBlock e_type e_val].
  assert (Ln : nlen w = nlen (c_val c)) by (unfold nlen; now rewrite Lw). rewrite big_endian_be_val, (Hf eq_refl), B. splits; auto.
  intro Q. apply (mkBlock_shortest 50 w); [reflexivity|lia].
Qed.
