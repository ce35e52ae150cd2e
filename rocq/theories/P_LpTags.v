(* Proofs about tags and link fields. *)
From Coq Require Import Lia ZifyBool ZifyNat ZifyN ZArith.
From Verif Require Import Base BaseLemmas M_Tlv P_Tlv S_Tlv M_Lp S_Lp P_Lp P_LpT T_Lp M_LpTags S_LpTags.
Open Scope N_scope.

Lemma lpf_dec : forall f g : lpf, {f = g} + {f <> g}.
Proof. decide equality. Qed.
Lemma reach_default : lp_reach lp_default.
Proof. exists []. split; auto. Qed.
Lemma reach_add : forall f v p p' e, lp_reach p -> lv_typed f v -> lp_add f v p = (p', e) -> lp_reach p'.
Proof.
  intros f v p p' e (ops & R & F) T H. exists (ops ++ [LAdd f v]). split.
  - unfold lp_run in *. rewrite fold_left_app, R. cbn. now rewrite H.
  - apply Forall_app. split; auto.
Qed.
Definition upd (exp : lpf -> option lpv) (f : lpf) (v : lpv) : lpf -> option lpv := fun g => if lpf_dec g f then Some v else exp g.
Lemma exact_add : forall f v p p' exp, lp_reach p -> has_exactly p exp -> exp f = None -> lv_readable f v -> lp_add f v p = (p', None) -> lp_reach p' /\ has_exactly p' (upd exp f v).
Proof.
  intros f v p p' exp R H E V A. split; [eapply reach_add; eauto; apply V|]. destruct (C27_add f v p p' R V A) as (C & _ & G & _ & O).
  pose proof (H f) as Hf. rewrite E in Hf. rewrite Hf in *. intro g. unfold upd. destruct (lpf_dec g f) as [->|D]; [auto|].
  destruct (O g D) as (X & _ & Y). specialize (H g). destruct (exp g); rewrite X; auto. now rewrite Y.
Qed.
Definition upd_opt (exp : lpf -> option lpv) (f : lpf) (o : option lpv) : lpf -> option lpv := match o with None => exp | Some v => upd exp f v end.
Definition small (v : lpv) : Prop := (forall b, v = VRange b -> nlen b < 2 ^ 62) /\ (forall d, v = VAnn d -> nlen (e_wire d) < 2 ^ 62).
Lemma exact_tag : forall f o p exp, lp_reach p -> has_exactly p exp -> exp f = None -> tag_ok f o -> (forall v, o = Some v -> small v) ->
  exists p', addFieldFromTag f o (Ok p) = Ok p' /\ lp_reach p' /\ has_exactly p' (upd_opt exp f o).
Proof.
  intros f o p exp R H E T S. cbn [addFieldFromTag bind]. destruct o as [v|]; [|exists p; auto].
  destruct (S v eq_refl) as (S1 & S2). destruct (C27_add_ok f v p R (T v eq_refl) S1 S2) as (p' & A); [right; specialize (H f); now rewrite E in H|].
  rewrite A. exists p'. split; auto. eapply exact_add; eauto.
Qed.
(* the fields of a packet determine what is read *)
Lemma decode_same : forall f e e', e_type e = e_type e' -> e_val e = e_val e' -> lf_decode f e = lf_decode f e'.
Proof. intros f e e' T V. unfold lf_decode, readNNIBlock, nack_decode, cp_decode. now rewrite T, V. Qed.
Lemma fields_same : forall p q, lp_fields p = lp_fields q -> forall f, lp_count f p = lp_count f q /\ lp_get f 0 p = lp_get f 0 q.
Proof.
  intros [es w] [es' w'] E f. unfold lp_fields, lp_count, lp_get in *. cbn [lp_es] in *. revert es' E. generalize 0%nat at 1 3 as i. generalize 0%nat as c. intros c i. revert c.
  induction es as [|e es IH]; intros c [|e' es'] E; try discriminate; [auto|]. cbn [map] in E. injection E as T V E. cbn [filter lp_get_loop]. rewrite <- T.
  destruct (IH c es' E) as (A & B). destruct (IH (S c) es' E) as (_ & C). destruct (e_type e =? lf_type f); cbn [negb length]; [|auto]. split; [congruence|]. rewrite (decode_same f e e' T V). now destruct (Nat.eqb c i).
Qed.
Lemma exact_same : forall p q exp, lp_fields p = lp_fields q -> has_exactly q exp -> has_exactly p exp.
Proof. intros p q exp E H f. destruct (fields_same p q E f) as (A & B). specialize (H f). destruct (exp f); rewrite A; auto. now rewrite B. Qed.
Lemma exact_ext : forall p exp exp', (forall f, exp f = exp' f) -> has_exactly p exp -> has_exactly p exp'.
Proof. intros p exp exp' E H f. rewrite <- E. apply H. Qed.
Lemma exact_nothing : has_exactly lp_default (fun _ => None).
Proof. intro f. reflexivity. Qed.
Lemma empty_exact : forall p exp, has_exactly p exp -> lp_empty p = true -> forall f, exp f = None.
Proof. intros [[|x l] w] exp H E f; [|discriminate]. specialize (H f). destruct (exp f); auto. destruct H as (H & _). discriminate. Qed.
Lemma readable_frag : forall t w, net_packet t w -> lv_readable FFragment (VRange (e_wire w)) /\ small (VRange (e_wire w)).
Proof.
  intros t w (T & B & L). repeat split; auto.
  - intro E. rewrite E in B. vm_compute in B. discriminate.
  - now intros b [= <-].
  - discriminate.
Qed.
(* all together: the fields are exactly those of exp, none being the fragment *)
Lemma finish : forall t p exp w, t = tInterest \/ t = tData -> net_packet t w -> lp_reach p -> has_exactly p exp -> exp FFragment = None ->
  (forall b, finishEncoding (Ok p) w = Sent b -> carries b w exp /\ nlen (e_wire b) <= 8800) /\
  (forall e, finishEncoding (Ok p) w = Threw e -> e = ELength).
Proof.
  intros t p exp w Ht P R H F. destruct (readable_frag t w P) as (V & S). destruct P as (T & B & L). unfold finishEncoding. cbn [bind].
  destruct (lp_empty p) eqn:Em.
  - split; [|intro e; destruct (_ <? _); discriminate]. intro b. destruct (MAX_NDN_PACKET_SIZE <? nlen (e_wire w)) eqn:Sz; [discriminate|]. intros [= <-]. split; [|unfold MAX_NDN_PACKET_SIZE in Sz; lia]. split; auto.
    assert (D : forall q, lp_decode w q = lp_add FFragment (VRange (e_wire w)) lp_default) by (intro q; unfold lp_decode; replace ((e_type w =? tInterest) || (e_type w =? tData)) with true by (rewrite T; destruct Ht as [->| ->]; reflexivity); reflexivity).
    destruct (C27_add_ok FFragment (VRange (e_wire w)) lp_default reach_default V (proj1 S) (proj2 S)) as (p' & A); [right; reflexivity|].
    exists p'. split; [now rewrite D|]. destruct (exact_add _ _ _ _ _ reach_default exact_nothing eq_refl V A) as (_ & X). refine (exact_ext _ _ _ _ X). intro f. unfold upd. rewrite (empty_exact p exp H Em). destruct (lpf_dec f FFragment) as [->|N]; [reflexivity|destruct f; auto; now elim N].
  - destruct (C27_add_ok FFragment (VRange (e_wire w)) p R V (proj1 S) (proj2 S)) as (p' & A); [right; specialize (H FFragment); now rewrite F in H|].
    cbn [addFieldFromTag bind]. rewrite A. cbn [bind]. destruct (exact_add _ _ _ _ _ R H F V A) as (R' & X).
    assert (NB : ~ exists v, lp_fields p' = [(80, v)]).
    { intros (v & E). assert (C : length (lp_es p') = 1%nat) by (unfold lp_fields in E; apply (f_equal (@length _)) in E; rewrite map_length in E; exact E).
      unfold lp_add in A. destruct (negb _ && _); [discriminate|]. destruct (lf_encode _ _); [|discriminate]. injection A as <-. cbn [lp_es] in C. destruct p as [[|x l] pw]; [discriminate|].
      clear - C. cbn [lp_es lp_insert] in C. destruct (cmpField _ _); cbn in C; [discriminate|]. injection C as C. destruct l as [|y l]; cbn in C; [discriminate|]. destruct (cmpField _ _); discriminate. }
    destruct (C26_encodes p' R' NB) as [(b & p2 & E)|E]; rewrite E; cbn [fst].
    + split; [|intro e; destruct (_ <? _); discriminate]. intro b'. destruct (MAX_NDN_PACKET_SIZE <? nlen (e_wire b)) eqn:Sz; [discriminate|]. intros [= <-]. split; [|unfold MAX_NDN_PACKET_SIZE in Sz; lia].
      destruct (C26_roundtrip p' b p2 lp_default R' E NB) as (W & _ & q & D & Fd). split; auto. exists q. split; auto. apply (exact_same q p'); auto.
      refine (exact_ext _ _ _ _ X). intro f. unfold upd. destruct (lpf_dec f FFragment) as [->|N]; [reflexivity|destruct f; auto; now elim N].
    + split; [discriminate|]. now intros e [= <-].
Qed.
Lemma enum_small : forall f o, tag_ok f o -> match f with FNextHopFaceId | FCongestionMark | FCachePolicy | FNack => True | _ => False end -> forall v, o = Some v -> small v.
Proof. intros f o T F v E. destruct (T v E) as (Ty & _). unfold lv_typed in Ty. destruct f; try contradiction; destruct v; try contradiction; split; discriminate. Qed.
(* two tags and a network packet *)
Lemma two_tags : forall t f g o o' w, t = tInterest \/ t = tData -> net_packet t w -> f <> g -> f <> FFragment -> g <> FFragment -> tag_ok f o -> tag_ok g o' ->
  match f with FNextHopFaceId | FCongestionMark | FCachePolicy | FNack => True | _ => False end -> match g with FNextHopFaceId | FCongestionMark | FCachePolicy | FNack => True | _ => False end ->
  let r := finishEncoding (addFieldFromTag g o' (addFieldFromTag f o (Ok lp_default))) w in
  (forall b, r = Sent b -> carries b w (fun x => if lpf_dec x g then o' else if lpf_dec x f then o else None) /\ nlen (e_wire b) <= 8800) /\ (forall e, r = Threw e -> e = ELength).
Proof.
  intros t f g o o' w Ht P D Df Dg T T' S S'. cbv zeta.
  destruct (exact_tag f o lp_default _ reach_default exact_nothing eq_refl T (enum_small f o T S)) as (p & E & R & H). rewrite E.
  destruct (exact_tag g o' p _ R H) as (p' & E' & R' & H'); auto.
  { unfold upd_opt, upd. destruct o; auto. destruct (lpf_dec g f); auto. now elim D. }
  { apply (enum_small g); auto. }
  rewrite E'. apply (finish t p'); auto.
  - refine (exact_ext _ _ _ _ H'). intro x. unfold upd_opt, upd. destruct o' as [v'|], o as [v|]; destruct (lpf_dec x g) as [->|]; auto; destruct (lpf_dec _ f); auto; try congruence.
  - destruct (lpf_dec FFragment g); [congruence|]. destruct (lpf_dec FFragment f); [congruence|reflexivity].
Qed.
(* reception *)
Lemma receive : forall t b w exp, t = tInterest \/ t = tData -> net_packet t w -> carries b w exp ->
  onReceiveElement b = Ok (if t =? tData then RData w (exp FIncomingFaceId) (exp FCongestionMark) else match exp FNack with Some h => RNack w h (exp FIncomingFaceId) (exp FCongestionMark) | None => RInterest w (exp FIncomingFaceId) (exp FCongestionMark) end).
Proof.
  intros t b w exp Ht (T & B & L) (_ & p & D & H). unfold onReceiveElement. rewrite D. destruct (H FFragment) as (_ & G). cbn beta iota in G. rewrite G. cbn [bind]. rewrite B. cbn [bind].
  assert (Tag : forall f, f <> FFragment -> addTagFromField f p = Ok (exp f)).
  { intros f N. specialize (H f). unfold addTagFromField, lp_has. destruct f; try (now elim N); cbn beta iota in H; destruct (exp _); [destruct H as (C & G'); rewrite C; cbn [Nat.ltb Nat.leb]; rewrite G'; reflexivity|rewrite H; reflexivity| .. ]; try (destruct H as (C & G'); rewrite C; cbn [Nat.ltb Nat.leb]; rewrite G'; reflexivity); rewrite H; reflexivity. }
  rewrite !Tag by discriminate. cbn [bind]. rewrite T. specialize (H FNack). cbn beta iota in H. destruct Ht as [->| ->].
  - change (tInterest =? tInterest) with true. change (tInterest =? tData) with false. cbn iota. unfold lp_has. destruct (exp FNack); [destruct H as (C & G'); rewrite C; cbn [Nat.ltb Nat.leb]; rewrite G'; reflexivity|rewrite H; reflexivity].
  - reflexivity.
Qed.
