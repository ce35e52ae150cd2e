From Coq Require Import List Lia ZifyBool ZifyNat ZifyN String.
From Verif Require Import Base BaseLemmas M_Tlv M_Str M_Name S_Name M_Packet M_Ims S_Ims P_Ims M_Signer M_IntPolicy M_Regex S_Regex P_Regex P_Regex4 M_Pib M_CertCache M_Anchors S_Anchors M_Validator S_Validator M_VConfig S_VConfig P_VConfig P_VConfig2.
Import ListNotations.
Open Scope list_scope.
Open Scope N_scope.

(* ---- histories of the policy object ---- *)
Section U.
Variable re_count : bytes -> option N.
Variable re_match : bytes -> bytes -> option (list bytes).
Variable uf : uri_format.
Variable stack : nat.
Hypothesis Std : std_regex re_count re_match uf.
Notation reached := (reached re_count re_match uf stack).
Notation in_use := (in_use re_count re_match uf stack).
Notation says_p := (says_p re_count).
Lemma std_dot : valid re_count (str ".*").
Proof. destruct Std as [[D _] _]. unfold valid. change (str ".*") with [cPeriod; cStar]. rewrite D. discriminate. Qed.
Lemma std_blank : valid re_count [].
Proof. apply Std. Qed.
Lemma std_key : valid re_count (str "KEY").
Proof. assert (L : literal (str "KEY") (str "KEY")) by (repeat (apply L_plain; [intro Y; repeat (destruct Y as [Y|Y]; [discriminate|]); exact Y|]); constructor). exact (proj1 (proj1 (proj2 Std) (str "KEY") (str "KEY") ltac:(discriminate) L)). Qed.
Lemma load_all_configured : forall anchor l p, vp_configured (fst (fst (load_all re_count anchor l p))) = vp_configured p.
Proof.
  intros anchor. induction l as [|[k v] l IH]; intro p; cbn [load_all]; [reflexivity|]. destruct (iequals k (str "rule")); [destruct (rl_create re_count v) as [r|]; [rewrite IH; destruct (rl_data r); reflexivity|reflexivity]|]. destruct (iequals k (str "trust-anchor")); [|reflexivity]. destruct (ta_create v) as [[a|]|]; [|rewrite IH; reflexivity|reflexivity]. destruct (anchor a); [reflexivity|]. cbv zeta. cbn [fst]. apply IH.
Qed.
Lemma vp_check_configured : forall p v, vp_configured (fst (vp_check re_match uf stack p v)) = vp_configured v.
Proof. intros p v. unfold vp_check. destruct (vp_bypass v); [reflexivity|]. destruct (pp_sigInfo p) as [[|si]|]; try reflexivity. destruct (klName si); [reflexivity|]. destruct (pp_isData p); reflexivity. Qed.
Lemma vp_check_new : forall p, fst (vp_check re_match uf stack p vp_new) = vp_new.
Proof. intro p. unfold vp_check. cbn [vp_bypass vp_new]. destruct (pp_sigInfo p) as [[|si]|]; try reflexivity. destruct (klName si); [reflexivity|]. destruct (pp_isData p); reflexivity. Qed.
Lemma reached_new : forall v, reached v -> vp_configured v = false -> v = vp_new.
Proof.
  induction 1 as [|anchor c v R IH|p v R IH]; intro H; [reflexivity| |].
  - exfalso. unfold vp_load in H. destruct (vp_configured v) eqn:C; cbv zeta in H; cbn [fst] in H; rewrite load_all_configured in H; discriminate.
  - rewrite vp_check_configured in H. rewrite (IH H). apply vp_check_new.
Qed.
Definition base (v : vpol) : vpol := if vp_configured v then mkVPol true false [] [] else mkVPol true (vp_bypass v) (vp_data v) (vp_int v).
Definition resets (v : vpol) : list leff := if vp_configured v then [EResetAnchors; EResetVerified] else [].
Lemma vp_load_eq : forall anchor c v, fst (fst (vp_load re_count anchor c v)) = fst (fst (load_all re_count anchor (kids c) (base v))) /\
  snd (fst (vp_load re_count anchor c v)) = resets v ++ snd (fst (load_all re_count anchor (kids c) (base v))) /\ snd (vp_load re_count anchor c v) = snd (load_all re_count anchor (kids c) (base v)).
Proof. intros anchor c v. unfold vp_load, base, resets. destruct (vp_configured v); auto. Qed.
Lemma base_says : forall v, reached v -> says_p (base v) false [].
Proof. intros v R. unfold base. destruct (vp_configured v) eqn:C; [splits; repeat constructor|]. rewrite (reached_new v R C). repeat constructor. Qed.
Lemma is_any_iff : forall l, is_any l = true <-> In SAny l.
Proof. intro l. unfold is_any. rewrite existsb_exists. split; [intros ([| |] & I & E); try discriminate; exact I|intro I; exists SAny; auto]. Qed.
Lemma use_says : forall l v, in_use l v -> says_p v (is_any l) (rules_of l).
Proof.
  induction 1 as [anchor c v R T Ok|p v U IH].
  - destruct (vp_load_eq anchor c v) as (E1 & _ & E3). rewrite E3 in Ok. destruct (load_all_says re_count std_dot std_blank std_key anchor _ _ T _ _ _ (base_says v R) Ok) as (_ & _ & S0). rewrite E1. exact S0.
  - apply vp_keeps; auto.
Qed.
Lemma use_bypass : forall l v p, in_use l v -> (snd (vp_check re_match uf stack p v) = PABypass <-> In SAny l).
Proof.
  intros l v p U. destruct (use_says _ _ U) as (B & _). rewrite <- is_any_iff, <- B. unfold vp_check. destruct (vp_bypass v); [split; auto|]. split; [|discriminate]. destruct (pp_sigInfo p) as [[|si]|]; try discriminate. destruct (klName si) as [|kl]; [discriminate|].
  destruct (pp_isData p); cbn [snd]; [pose proof (br_answers re_match uf stack p (sigValue si) kl (vp_data v)) as A|pose proof (br_answers re_match uf stack p (sigValue si) kl (vp_int v)) as A]; intro X; rewrite X in A; destruct A.
Qed.
Lemma use_no_bypass : forall l v, in_use l v -> ~ In SAny l -> vp_bypass v = false.
Proof. intros l v U N. destruct (use_says _ _ U) as (B & _). rewrite B. destruct (is_any l) eqn:E; [|reflexivity]. apply is_any_iff in E. contradiction. Qed.
Lemma use_request : forall l v p rq, in_use l v -> snd (vp_check re_match uf stack p v) = PARequest rq -> exists si sig kl, info_of p si /\ signed_as si sig kl /\ rq = certRequest kl /\
  exists r, In r (rules_for p l) /\ applies re_match uf p r /\ allows re_count re_match uf p sig kl r.
Proof.
  intros l v p rq U H. pose proof (use_says _ _ U) as Sp. pose proof H as H0. unfold vp_check in H. destruct (vp_bypass v) eqn:B; [discriminate|]. destruct (pp_sigInfo p) as [[|si]|] eqn:I; try discriminate. destruct (klName si) as [|kl] eqn:K; [discriminate|]. apply info_iff in I. assert (S0 : signed_as si (sigValue si) kl) by (apply signed_iff; auto).
  rewrite (vp_answer re_match uf stack p v si _ kl B I S0) in H0. destruct (br_request re_count re_match uf stack Std p _ kl _ _ (vp_rules _ p v _ l Sp) rq H0) as (E & r & A). exists si, (sigValue si), kl. splits; auto. exists r. tauto.
Qed.
Lemma use_exact : forall l v p si sig kl, in_use l v -> ~ In SAny l -> info_of p si -> signed_as si sig kl -> deep_enough stack (pp_name p) -> deep_enough stack kl -> (forall r, In r (rules_for p l) -> decided_by re_count re_match uf p kl r) ->
  (snd (vp_check re_match uf stack p v) = PARequest (certRequest kl) /\ allowed re_count re_match uf p sig kl l) \/ (snd (vp_check re_match uf stack p v) = PAFail VE_POLICY_ERROR /\ ~ allowed re_count re_match uf p sig kl l).
Proof.
  intros l v p si sig kl U N I S0 Dp Dk De. pose proof (use_says _ _ U) as Sp. rewrite (vp_answer re_match uf stack p v si sig kl (use_no_bypass _ _ U N) I S0). exact (br_exact re_count re_match uf stack Std p sig kl _ _ (vp_rules _ p v _ l Sp) Dp Dk De).
Qed.
End U.

(* ---- trust ---- *)
Lemma under_app : forall a b c, under a b -> under a (b ++ c).
Proof. intros a b c (d & ->). exists (d ++ c). now rewrite app_assoc. Qed.
Lemma under_trans : forall a b c, under a b -> under b c -> under a c.
Proof. intros a b c (d & ->) H. destruct H as (e & ->). exists (d ++ e). now rewrite app_assoc. Qed.
Lemma under_comparable : forall a b c, under a c -> under b c -> under a b \/ under b a.
Proof.
  intros a b c (x & ->) (y & E). revert b E. induction a as [|k a IH]; intros [|j b] E; [left; exists []; reflexivity|left; exists (j :: b); reflexivity|right; exists (k :: a); reflexivity|]. cbn [app] in E. apply cons_inj in E. destruct E as [-> E]. destruct (IH b E) as [(z & ->)|(z & ->)]; [left|right]; exists z; reflexivity.
Qed.
(* the identity of a key above a certificate, and a name without KEY above it *)
Lemma zone_above : forall i z n, under (i ++ [KEY]) n -> under z n -> ~ In KEY z -> under z i.
Proof.
  intros i z n U1 U2 N. destruct (under_comparable _ _ _ U1 U2) as [(x & ->)|(x & E)].
  - exfalso. apply N. rewrite <- app_assoc. apply in_or_app. right. now left.
  - destruct x as [|k x _] using rev_ind; [rewrite app_nil_r in E; subst z; exfalso; apply N; apply in_or_app; right; now left|]. rewrite app_assoc in E. apply app_inj_tail in E. destruct E as [-> _]. exists x. reflexivity.
Qed.
Lemma first_key : forall n, In KEY n -> exists z t, n = z ++ KEY :: t /\ ~ In KEY z.
Proof.
  induction n as [|k n IH]; [intros []|]. intro I. destruct (key_eqb k KEY) eqn:E; [apply key_eqb_eq in E; subst k; exists [], n; auto|]. destruct I as [->|I]; [rewrite (proj2 (key_eqb_eq KEY KEY) eq_refl) in E; discriminate|]. destruct (IH I) as (z & t & -> & N). exists (k :: z), t. split; [reflexivity|]. intros [->|X]; [rewrite (proj2 (key_eqb_eq KEY KEY) eq_refl) in E; discriminate|contradiction].
Qed.

Scheme linked_mm := Minimality for linked Sort Prop with trust_mm := Minimality for trust Sort Prop with verified_mm := Minimality for verified Sort Prop.
Combined Scheme trust_mutind from linked_mm, trust_mm, verified_mm.
Section Tr.
Variable verify : vitem -> option cert -> bool.
Variable Rz : list key -> Prop.
Hypothesis Rz_ok : forall z, Rz z -> ~ In KEY z.
Definition lead (q : qint) (n : list key) : Prop := (exists i k, q_name q = i ++ KEY :: k /\ under i n) \/ (exists z, Rz z /\ q_name q = z /\ under z n).
Definition zone (h : list vevent) (z : list key) : Prop := (exists c, root h c /\ namespace c z) \/ Rz z.
Definition zoned (h : list vevent) (n : list key) : Prop := exists z, zone h z /\ under z n.
Definition safe (h : list vevent) (n : list key) : Prop := zoned h n \/ ~ In KEY n.
Lemma zone_no : forall h z, zone h z -> ~ In KEY z.
Proof. intros h z [(c & _ & t & _ & N)|R]; auto. Qed.
Lemma accepts_above : forall q p i k, q_accepts q p -> q_name q = i ++ KEY :: k -> under (i ++ [KEY]) (pk_name p).
Proof.
  intros q p i k A E. unfold q_accepts in A. rewrite E in A. destruct A as [A|[A|[_ (t & A)]]].
  - unfold pk_full in A. destruct k as [|d k _] using rev_ind.
    + apply app_inj_tail in A. destruct A as [_ A]. discriminate.
    + change (i ++ KEY :: k ++ [d]) with (i ++ (KEY :: k) ++ [d]) in A. rewrite app_assoc in A. apply app_inj_tail in A. destruct A as [<- _]. exists k. now rewrite <- app_assoc.
  - rewrite <- A. exists k. now rewrite <- app_assoc.
  - rewrite A. exists (k ++ t). rewrite <- !app_assoc. reflexivity.
Qed.
Lemma lead_step : forall h q t n, lead q n -> q_accepts q (ct_pk t) -> safe h (ct_name t) -> zoned h n.
Proof.
  intros h q t n [(i & k & E & U)|(z & R & _ & U)] A S0; [|exists z; split; [right; exact R|exact U]]. pose proof (accepts_above _ _ _ _ A E) as X. fold (ct_name t) in X. destruct S0 as [(z & Z & Uz)|N].
  - exists z. split; [exact Z|]. eapply under_trans; [|exact U]. eapply zone_above; eauto. eapply zone_no; eauto.
  - exfalso. apply N. destruct X as (y & ->). rewrite <- app_assoc. apply in_or_app. right. now left.
Qed.
Lemma root_safe : forall h c, root h c -> safe h (ct_name c).
Proof.
  intros h c R. destruct (in_dec (fun a b => ltac:(destruct (key_eqb a b) eqn:E; [left; now apply key_eqb_eq|right; intro X; apply key_eqb_eq in X; congruence])) KEY (ct_name c)) as [I|N]; [left|right; exact N]. destruct (first_key _ I) as (z & t & E & N). exists z. split; [left; exists c; split; [exact R|exists t; auto]|]. exists (KEY :: t). exact E.
Qed.
Lemma root_more : forall e h c, root h c -> root (e :: h) c.
Proof. intros e h c [(en & I)|(h1 & h2 & en & -> & A)]; [left; exists en; now right|right; exists (e :: h1), h2, en; auto]. Qed.
Lemma zoned_more : forall e h n, zoned h n -> zoned (e :: h) n.
Proof. intros e h n (z & [(c & R & N)|R] & U); exists z; (split; [|exact U]); [left; exists c; split; [now apply root_more|exact N]|right; exact R]. Qed.
Lemma safe_more : forall e h n, safe h n -> safe (e :: h) n.
Proof. intros e h n [Z|N]; [left; now apply zoned_more|right; exact N]. Qed.
Definition ruled (h : list vevent) : Prop := forall c q, approved h c q -> lead q (ct_name c).
Lemma ruled_less : forall e h, ruled (e :: h) -> ruled h.
Proof. intros e h R c q (e0 & en & ch & rq & I & A). apply R. exists e0, en, ch, rq. split; [now right|exact A]. Qed.
Lemma trust_safe : forall h c, trust verify h c -> ruled h -> safe h (ct_name c).
Proof.
  assert (X : (forall h c, linked verify h c -> ruled h -> safe h (ct_name c)) /\ (forall h c, trust verify h c -> ruled h -> safe h (ct_name c)) /\ (forall h c, verified verify h c -> ruled h -> safe h (ct_name c))); [|apply X].
  apply trust_mutind.
  - intros h c t q T IH V A Q R. left. eapply lead_step; eauto.
  - intros e h en c L A R. apply root_safe. right. exists [], (e :: h), en. auto.
  - intros e h en c na L V IH Na Le R. apply safe_more. apply IH. eapply ruled_less; eauto.
  - intros h c L IH R. auto.
  - intros h c L IH R. auto.
  - intros en h c R. apply root_safe. left. exists en. now left.
  - intros e h c V IH Ne R. apply safe_more. apply IH. eapply ruled_less; eauto.
Qed.
End Tr.

Lemma KEY_reserved : forall z, reserved z -> ~ In KEY z.
Proof. intros z [->| ->]; intros [X|[X|[X|[]]]]; discriminate. Qed.
Lemma keys_digest : forall si sig kl, signed_as si sig kl -> si_type si = Some 0 -> keys kl = digestIdentity.
Proof. intros si sig kl (_ & [[_ ->]|[N _]]) E; [reflexivity|contradiction]. Qed.
(* ---- ValidationPolicySimpleHierarchy ---- *)
Lemma simple_exact : forall p si sig kl, info_of p si -> signed_as si sig kl ->
  (simple_check p = PARequest (certRequest kl) /\ exists i, identity_of (keys kl) i /\ under i (keys (pp_name p))) \/ ((exists e, simple_check p = PAFail e) /\ ~ exists i, identity_of (keys kl) i /\ under i (keys (pp_name p))).
Proof.
  intros p si sig kl I S0. apply info_iff in I. apply signed_iff in S0. destruct S0 as [K _]. unfold simple_check. rewrite I, K. destruct (extractIdentity kl) as [i|e] eqn:X.
  - apply extract_sound in X. destruct (cn_prefix i (pp_name p)) eqn:C; [left; split; [reflexivity|]; apply cn_prefix_iff in C; eauto|right]. split; [eauto|]. intros (j & J & U). rewrite (identity_unique _ _ _ J X) in U. apply cn_prefix_iff in U. congruence.
  - destruct (extract_err _ _ X) as [-> N]. right. split; [eauto|]. intros (j & J & _). exact (N j J).
Qed.
Lemma simple_request : forall p rq, simple_check p = PARequest rq -> exists si sig kl i, info_of p si /\ signed_as si sig kl /\ rq = certRequest kl /\ identity_of (keys kl) i /\ under i (keys (pp_name p)).
Proof.
  intros p rq H. pose proof H as H0. unfold simple_check in H. destruct (pp_sigInfo p) as [[|si]|] eqn:I; try discriminate. destruct (klName si) as [|kl] eqn:K; [discriminate|]. apply info_iff in I. assert (S0 : signed_as si (sigValue si) kl) by (apply signed_iff; auto). destruct (simple_exact _ _ _ _ I S0) as [(E & i & J & U)|((e & E) & _)]; rewrite H0 in E; [|discriminate]. injection E as ->. exists si, (sigValue si), kl, i. auto.
Qed.
Lemma identity_lead : forall kl i n, identity_of kl i -> under i n -> lead reserved (mkQ kl true false) n.
Proof. intros kl i n [[R ->]|(_ & t & -> & _)] U; [right; eexists; splits; eauto; reflexivity|left; eexists; eexists; split; [reflexivity|exact U]]. Qed.

Section Go.
Variable verify : vitem -> option cert -> bool.
Variable Rz : list key -> Prop.
Hypothesis Rz_ok : forall z, Rz z -> ~ In KEY z.
Notation zoned := (zoned Rz).
(* a validation that succeeded, given what the policy guarantees *)
Lemma good_zoned : forall h i (N : ppkt -> list key -> Prop) (content : vitem -> ppkt), good verify h i -> contents content -> 
  (forall e en it chain, In e h -> looks e = Some en -> en_pol en it chain <> PABypass) ->
  (forall e en it chain rq, In e h -> looks e = Some en -> en_pol en it chain = PARequest rq -> exists n, N (content it) n /\ lead Rz (cq_int rq) n) ->
  (forall c n, N (content (VCert c)) n -> n = ct_name c) ->
  (forall en p rq, In (VStart en p) h -> en_pol en (VPkt p) [] = PARequest rq -> succeeded verify h p (cq_int rq) -> (exists t, trust verify h t /\ q_accepts (cq_int rq) (ct_pk t)) \/ forall n, N (content (VPkt p)) n -> zoned h n) ->
  exists p n, validated h i p /\ N (content (VPkt p)) n /\ zoned h n.
Proof.
  intros h i N content (h2 & en & p & h1 & E & Ei & _ & G) Co Nb Po Ce Su.
  assert (I : In (VStart en p) h) by (rewrite E; apply in_or_app; right; now left).
  destruct G as [[B _]|(rq & R & Sc)]; [exfalso; exact (Nb _ en _ _ I eq_refl B)|]. destruct (Po _ en _ _ _ I eq_refl R) as (n & Nn & Le). exists p, n. splits; [exists h2, en, h1; auto|exact Nn|]. destruct (Su _ p _ I R Sc) as [(t & T & A)|Z]; [|now apply Z].
  eapply lead_step; eauto. eapply trust_safe; eauto. intros c q (e0 & en0 & ch & rq0 & I0 & L0 & R0 & <- & _). destruct (Po _ _ _ _ _ I0 L0 R0) as (m & Nm & Lm). now rewrite <- (Ce c m Nm).
Qed.
End Go.
