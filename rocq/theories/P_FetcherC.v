From Coq Require Import ZArith SpecFloat Lia ZifyBool ZifyNat ZifyN.
From Verif Require Import Base BaseLemmas M_Tlv M_Name S_Name P_Name P_NameUri M_Packet S_Packet M_Rtt M_Fetcher S_Fetcher P_Fetcher P_FetcherB S_Segmenter P_Segmenter.
Open Scope N_scope.

Lemma run_app : forall conv dconv o a b s, fs_run conv dconv o (a ++ b) s = bind (fs_run conv dconv o a s) (fs_run conv dconv o b).
Proof.
  induction a as [|e a IH]; intros b s; cbn [app fs_run]; [reflexivity|]. destruct (fs_step conv dconv o e s) as [s1|]; cbn [bind]; auto.
Qed.
Lemma kind_ckey : forall d k c c', ckey c = ckey c' -> isKind d k c = isKind d k c' /\ toKind d k c = toKind d k c'.
Proof.
  intros d k [t h v] [t' h' v'] E. unfold ckey in E. cbn in E. injection E as <- <-. split; reflexivity.
Qed.
Lemma segs_numbers : forall conv dconv signer si n f ct segs i d, segs_ok conv signer si n f ct segs -> can_decode dconv conv = true -> nlen segs < 2 ^ 63 ->
  nth_error segs i = Some d -> segno dconv d = Some (N.of_nat i) /\ finalno dconv d = Some (nlen segs - 1).
Proof.
  intros conv dconv signer si n f ct segs i d (_ & OK) CD LN NE. destruct (OK _ _ NE) as (ci & cl & e & u & Hi & Hl & HN & HM & _).
  assert (IL : (i < length segs)%nat) by (apply nth_error_Some; congruence). assert (IN : N.of_nat i < nlen segs) by (unfold nlen; lia).
  destruct (numeric_round_trip conv dconv KSegment (N.of_nat i) ci) as [I1 I2]; auto; [lia|].
  destruct (numeric_round_trip conv dconv KSegment (nlen segs - 1) cl) as [L1 L2]; auto; [lia|].
  split.
  - unfold segno. unfold nkey in HN. apply (f_equal (@rev key)) in HN. rewrite rev_app_distr, <- map_rev in HN. cbn in HN.
    destruct (rev (n_comps (d_name d))) as [|c r]; cbn in HN; [discriminate|]. injection HN as HN1 HN2 _. destruct (kind_ckey dconv KSegment c ci) as [-> ->]; [unfold ckey; congruence|]. now rewrite I1, I2.
  - unfold finalno. unfold mi_fields in HM. destruct (mi_final (d_meta d)) as [c|]; cbn in HM; [|discriminate]. injection HM as _ _ HM1 HM2 _.
    destruct (kind_ckey dconv KSegment c cl) as [_ ->]; [unfold ckey; congruence|]. now rewrite L2.
Qed.
Lemma good_delivered : forall dconv l i v, good dconv l -> nth_error (delivered l) i = Some v -> segment_of dconv l (N.of_nat i) v.
Proof.
  intros dconv l. induction l as [|t l IH] using rev_ind; intros i v G H; [destruct i; discriminate|].
  assert (G1 : good dconv l). { intros a u c E. apply (G a u (c ++ [t])). now rewrite E, <- app_assoc. }
  rewrite delivered_app in H. assert (K : nth_error (delivered l) i = Some v -> segment_of dconv (l ++ [t]) (N.of_nat i) v) by (intro X; apply seg_more; auto).
  destruct t; cbn [delivered] in H; rewrite ?app_nil_r in H; auto.
  destruct (Nat.lt_ge_cases i (length (delivered l))) as [L|L]; [rewrite nth_error_app1 in H; auto|].
  rewrite nth_error_app2 in H by auto. destruct (i - length (delivered l))%nat as [|k] eqn:E; [|destruct k; discriminate]. cbn in H. injection H as ->.
  specialize (G l (OInOrder v) [] eq_refl). cbn in G. apply seg_more. replace (N.of_nat i) with (nlen (delivered l)); auto. unfold nlen. lia.
Qed.
Lemma last_final_const : forall dconv l f, l <> [] -> (forall d, In d l -> finalno dconv d = Some f) -> last_final dconv l = Some f.
Proof.
  intros dconv l f. induction l as [|d l IH]; intros N H; [congruence|]. cbn. destruct l as [|x l]; [cbn; apply H; now left|].
  rewrite IH; auto; [discriminate|]. intros y Y. apply H. now right.
Qed.
Lemma last_final_in : forall dconv l f, last_final dconv l = Some f -> exists d, In d l /\ finalno dconv d = Some f.
Proof.
  intros dconv l f. induction l as [|d l IH]; cbn; [discriminate|]. destruct (last_final dconv l) as [g|] eqn:E; intro H.
  - injection H as ->. destruct IH as (x & I & F); auto. eauto.
  - eauto.
Qed.
Section P.
Variables (conv dconv : convention) (signer : bytes -> bytes) (si : siginfo) (n : name) (f ct : N) (segs : list data).
Hypothesis OK : segs_ok conv signer si n f ct segs.
Hypothesis CD : can_decode dconv conv = true.
Hypothesis LN : nlen segs < 2 ^ 63.
Lemma pub_sizes : forall l, (forall d, In d l -> In d segs) -> same_sizes dconv l /\ small_finals dconv l.
Proof.
  intros l H. split.
  - intros d d' I I' E. apply H, In_nth_error in I as [i I]. apply H, In_nth_error in I' as [j I'].
    destruct (segs_numbers _ dconv _ _ _ _ _ _ _ _ OK CD LN I) as [S1 _]. destruct (segs_numbers _ dconv _ _ _ _ _ _ _ _ OK CD LN I') as [S2 _].
    rewrite S1, S2 in E. injection E as E. replace j with i in I' by lia. congruence.
  - intros d g I E. apply H, In_nth_error in I as [i I]. destruct (segs_numbers _ dconv _ _ _ _ _ _ _ _ OK CD LN I) as [_ S1]. rewrite S1 in E. injection E as <-.
    assert (nlen segs <> 0) by (destruct OK as [X _]; intro Z; apply nlen_0 in Z; auto). lia.
Qed.
Lemma pub_segment : forall a i c, (forall d, In d (validated a) -> In d segs) -> segment_of dconv a (N.of_nat i) c -> nth_error (map content segs) i = Some c.
Proof.
  intros a i c H (d & I & S1 & <-). apply H, In_nth_error in I as [j I]. destruct (segs_numbers _ dconv _ _ _ _ _ _ _ _ OK CD LN I) as [S2 _].
  rewrite S1 in S2. injection S2 as S2. replace i with j by lia. rewrite nth_error_map, I. reflexivity.
Qed.
Lemma pub_final : forall a g, (forall d, In d (validated a) -> In d segs) -> last_final dconv (validated a) = Some g -> g + 1 = nlen segs.
Proof.
  intros a g H E. apply last_final_in in E as (d & I & F). apply H, In_nth_error in I as [j I]. destruct (segs_numbers _ dconv _ _ _ _ _ _ _ _ OK CD LN I) as [_ S2].
  rewrite F in S2. injection S2 as ->. assert (nlen segs <> 0) by (destruct OK as [X _]; intro Z; apply nlen_0 in Z; auto). lia.
Qed.
Lemma pub_all : forall (cs : list bytes) a, (forall d, In d (validated a) -> In d segs) -> nlen segs <= nlen cs ->
  (forall i c, nth_error cs i = Some c -> segment_of dconv a (N.of_nat i) c) -> cs = map content segs.
Proof.
  intros cs a H L K. apply nth_error_ext'. intro i. destruct (nth_error cs i) as [c|] eqn:E.
  - symmetry. eapply pub_segment; eauto.
  - symmetry. apply nth_error_None. apply nth_error_None in E. rewrite map_length. unfold nlen in L. lia.
Qed.
End P.
