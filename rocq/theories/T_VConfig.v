(* C73: ValidatorConfig decides as its configuration says.  C74, C75: what hierarchical rules, and ValidationPolicySimpleHierarchy, guarantee about the certificate chain of
   a valid packet.  Specification: S_VConfig. *)
From Coq Require Import List ZArith Lia ZifyBool ZifyNat ZifyN String.
From Verif Require Import Base BaseLemmas M_Tlv M_Str M_Name S_Name M_Packet M_Ims S_Ims P_Ims M_Signer M_IntPolicy M_Regex S_Regex P_Regex P_Regex4 M_Pib M_CertCache M_Anchors S_Anchors M_Validator S_Validator M_VConfig S_VConfig P_VConfig P_VConfig2 P_VConfig3 T_Regex T_Validator.
Import ListNotations.
Open Scope list_scope.
Open Scope N_scope.

(* ---- C73 ---- *)
(* A configuration that load() accepts has the documented form.  The trust anchors it names are loaded, in order (after the earlier ones and the verified certificates are
   removed, if this is not the first load()) *)
Theorem C73_load : forall re_count re_match uf stack anchor c v, std_regex re_count re_match uf -> reached re_count re_match uf stack v -> snd (vp_load re_count anchor c v) = Ok tt ->
  exists l, config_text re_count c l /\ Forall (fun a => anchor a = None) (anchors_of l) /\
    snd (fst (vp_load re_count anchor c v)) = (if vp_configured v then [EResetAnchors; EResetVerified] else []) ++ anchors_of l.
Proof.
  intros re_count re_match uf stack anchor c v Std R Ok. destruct (vp_load_eq re_count anchor c v) as (E1 & E2 & E3). rewrite E3 in Ok. destruct (load_all re_count anchor (kids c) (base v)) as [[q ef] r] eqn:L. cbn [fst snd] in *. subst r.
  destruct (load_all_sound re_count (std_dot _ _ _ Std) (std_blank _ _ _ Std) (std_key _ _ _ Std) anchor _ _ _ _ L _ _ (base_says _ _ _ _ v R)) as (s & T & -> & A & _). exists s. splits; auto.
Qed.
Print Assumptions C73_load.
(* Conversely a configuration of that form is accepted, if its trust anchors can be loaded *)
Theorem C73_accepted : forall re_count re_match uf anchor c l v, std_regex re_count re_match uf -> config_text re_count c l -> Forall (fun a => anchor a = None) (anchors_of l) ->
  snd (vp_load re_count anchor c v) = Ok tt.
Proof.
  intros re_count re_match uf anchor c l v Std T A. destruct (vp_load_eq re_count anchor c v) as (_ & _ & ->). exact (load_all_complete re_count (std_dot _ _ _ Std) (std_blank _ _ _ Std) (std_key _ _ _ Std) anchor _ _ T A _).
Qed.
Print Assumptions C73_accepted.
(* Validation is bypassed, for every packet, if the configuration has a trust anchor any; else for none *)
Theorem C73_bypass : forall re_count re_match uf stack l v p, std_regex re_count re_match uf -> in_use re_count re_match uf stack l v -> (snd (vp_check re_match uf stack p v) = PABypass <-> In SAny l).
Proof. intros re_count re_match uf stack l v p Std U. eapply use_bypass; eauto. Qed.
Print Assumptions C73_bypass.
(* If the policy lets validation go on, some rule for this packet allows its KeyLocator, and the certificate asked for is the one named there *)
Theorem C73_request : forall re_count re_match uf stack l v p rq, std_regex re_count re_match uf -> in_use re_count re_match uf stack l v -> snd (vp_check re_match uf stack p v) = PARequest rq ->
  exists si sig kl, info_of p si /\ signed_as si sig kl /\ cq_int rq = mkQ (keys kl) true false /\
    exists r, In r (rules_for p l) /\ applies re_match uf p r /\ allows re_count re_match uf p sig kl r.
Proof. intros re_count re_match uf stack l v p rq Std U H. destruct (use_request re_count re_match uf stack Std l v p rq U H) as (si & sig & kl & A & B & -> & C). exists si, sig, kl. splits; auto. Qed.
Print Assumptions C73_request.
(* The exact decision, for rules that are decided: the first rule whose filters match decides; a packet that no rule is for is rejected *)
Theorem C73_exact : forall re_count re_match uf stack l v p si sig kl, std_regex re_count re_match uf -> in_use re_count re_match uf stack l v -> ~ In SAny l -> info_of p si -> signed_as si sig kl ->
  deep_enough stack (pp_name p) -> deep_enough stack kl -> (forall r, In r (rules_for p l) -> decided_by re_count re_match uf p kl r) ->
  ((exists rq, snd (vp_check re_match uf stack p v) = PARequest rq /\ cq_int rq = mkQ (keys kl) true false) /\ allowed re_count re_match uf p sig kl l) \/
  (snd (vp_check re_match uf stack p v) = PAFail VE_POLICY_ERROR /\ ~ allowed re_count re_match uf p sig kl l).
Proof.
  intros re_count re_match uf stack l v p si sig kl Std U N I S0 D1 D2 De. destruct (use_exact re_count re_match uf stack Std l v p si sig kl U N I S0 D1 D2 De) as [[E A]|E]; [left|right; exact E]. split; [|exact A]. eexists. split; [exact E|reflexivity].
Qed.
Print Assumptions C73_exact.

(* ---- C74 ---- *)
(* With only hierarchical checkers, a packet is valid only if it is in the namespace of some trust anchor (or certificate declared verified by the application), however long
   the chain of certificates between them is *)
Theorem C74_namespace : forall re_count re_match uf stack verify depth kind l content evs e s outs s' o i,
  std_regex re_count re_match uf -> hierarchical l -> contents content -> configured re_count re_match uf stack l content (e :: rev evs) ->
  Forall steady (evs ++ [e]) -> run verify depth kind evs vs_new = Ok (s, outs) -> step verify depth kind e s = Ok (s', o) -> In (OVerdict i VSuccess) o ->
  exists p n a id, validated (e :: rev evs) i p /\ about_name (content (VPkt p)) n /\ root (e :: rev evs) a /\ namespace a id /\ under id (keys n).
Proof.
  intros re_count re_match uf stack verify depth kind l content evs e s outs s' o i Std Hi Co Cf St R Sp Ov. pose proof (C50_chain _ _ _ _ _ _ _ _ _ _ St R Sp Ov) as G. remember (e :: rev evs) as h eqn:Eh. clear Eh.
  assert (Po : forall e en it chain rq, In e h -> looks e = Some en -> en_pol en it chain = PARequest rq -> exists n, (fun p n => exists m, about_name p m /\ n = keys m) (content it) n /\ lead (fun _ => False) (cq_int rq) n).
  { intros e0 en it chain rq I0 L0 P0. destruct (Cf _ _ it chain I0 L0) as (v & U & E). rewrite P0 in E. symmetry in E. destruct (C73_request _ _ _ _ _ _ _ _ Std U E) as (si & sig & kl & _ & _ & Q & r & Ir & _ & m & c & Am & Ic & Pc). exists (keys m). split; [exists m; auto|]. rewrite Q. left.
    assert (c = SCHier). { unfold hierarchical in Hi. rewrite Forall_forall in Hi. unfold rules_for in Ir. apply in_flat_map in Ir. destruct Ir as (sc & Is & Ir). specialize (Hi _ Is). destruct sc as [r'|a|]; [|destruct Ir|destruct Ir]. destruct (Bool.eqb _ _); [|destruct Ir]. destruct Ir as [->|[]]. rewrite Forall_forall in Hi. exact (Hi _ Ic). }
    subst c. destruct Pc as (j & (t & Ek & _) & Uj). exists j, t. auto. }
  destruct (good_zoned verify (fun _ => False) ltac:(intros z []) h i (fun p n => exists m, about_name p m /\ n = keys m) content G Co) as (p & n & V & (m & Am & ->) & z & [(a & Ra & Na)|[]] & U).
  - intros e0 en it chain I0 L0 P0. destruct (Cf _ _ it chain I0 L0) as (v & Uv & E). rewrite P0 in E. symmetry in E. apply (C73_bypass _ _ _ _ _ _ _ Std Uv) in E. unfold hierarchical in Hi. rewrite Forall_forall in Hi. exact (Hi _ E).
  - exact Po.
  - intros c n (m & Am & ->). destruct (Co c) as (nm & si & Ec & Ek). rewrite Ec in Am. inversion Am; subst. exact Ek.
  - intros en p rq I0 P0 [(t & T & A & _)|[_ D]]; [left; eauto|]. right. intros n _. exfalso. assert (X : forall j k, digestIdentity <> j ++ KEY :: k) by (intros j k X; assert (Y : In KEY digestIdentity) by (rewrite X; apply in_or_app; right; now left); destruct Y as [Y|[Y|[Y|[]]]]; discriminate).
    destruct D as [D|(c & q' & (e0 & en0 & ch & rq0 & I1 & L1 & P1 & <- & _) & D)]; [destruct (Po _ en _ _ _ I0 eq_refl P0) as (n' & _ & [(j & k & E & _)|(z & [] & _)])|destruct (Po _ _ _ _ _ I1 L1 P1) as (n' & _ & [(j & k & E & _)|(z & [] & _)])]; rewrite D in E; exact (X _ _ E).
  - exists p, m, a, z. auto.
Qed.
Print Assumptions C74_namespace.

(* ---- C75 ---- *)
(* ValidationPolicySimpleHierarchy: validation goes on if the identity in the KeyLocator is a prefix of the packet's name, and the certificate asked for is the one named
   there; else it fails *)
Theorem C75_exact : forall p si sig kl, info_of p si -> signed_as si sig kl ->
  ((exists rq, simple_check p = PARequest rq /\ cq_int rq = mkQ (keys kl) true false) /\ exists i, identity_of (keys kl) i /\ under i (keys (pp_name p))) \/
  ((exists e, simple_check p = PAFail e) /\ ~ exists i, identity_of (keys kl) i /\ under i (keys (pp_name p))).
Proof. intros p si sig kl I S0. destruct (simple_exact p si sig kl I S0) as [[E A]|E]; [left|right; exact E]. split; [|exact A]. eexists. split; [exact E|reflexivity]. Qed.
Print Assumptions C75_exact.
(* a packet without a SignatureInfo, or without a key name in it, fails *)
Theorem C75_request : forall p rq, simple_check p = PARequest rq -> exists si sig kl, info_of p si /\ signed_as si sig kl.
Proof. intros p rq H. destruct (simple_request p rq H) as (si & sig & kl & i & A & B & _). eauto. Qed.
Print Assumptions C75_request.
(* so a packet is valid only if it is in the namespace of some trust anchor (or certificate declared verified), or below one of the two reserved names *)
Theorem C75_namespace : forall verify depth kind content evs e s outs s' o i,
  digest_only verify content -> contents content -> simple content (e :: rev evs) ->
  Forall steady (evs ++ [e]) -> run verify depth kind evs vs_new = Ok (s, outs) -> step verify depth kind e s = Ok (s', o) -> In (OVerdict i VSuccess) o ->
  exists p id, validated (e :: rev evs) i p /\ ((exists a, root (e :: rev evs) a /\ namespace a id) \/ reserved id) /\ under id (keys (pp_name (content (VPkt p)))).
Proof.
  intros verify depth kind content evs e s outs s' o i Dg Co Si St R Sp Ov. pose proof (C50_chain _ _ _ _ _ _ _ _ _ _ St R Sp Ov) as G. remember (e :: rev evs) as h eqn:Eh. clear Eh.
  assert (Po : forall e en it chain rq, In e h -> looks e = Some en -> en_pol en it chain = PARequest rq -> exists n, (fun p n => n = keys (pp_name p)) (content it) n /\ lead reserved (cq_int rq) n).
  { intros e0 en it chain rq I0 L0 P0. rewrite (Si _ _ it chain I0 L0) in P0. destruct (simple_request _ _ P0) as (si & sig & kl & j & _ & _ & -> & Ij & Uj). exists (keys (pp_name (content it))). split; [reflexivity|]. exact (identity_lead _ _ _ Ij Uj). }
  destruct (good_zoned verify reserved KEY_reserved h i (fun p n => n = keys (pp_name p)) content G Co) as (p & n & V & -> & z & Z & U).
  - intros e0 en it chain I0 L0 P0. rewrite (Si _ _ it chain I0 L0) in P0. unfold simple_check in P0. destruct (pp_sigInfo _) as [[|si]|]; try discriminate. destruct (klName si) as [|kl]; try discriminate. destruct (extractIdentity kl) as [j|[]]; try discriminate. destruct (cn_prefix _ _); discriminate.
  - exact Po.
  - intros c n ->. destruct (Co c) as (nm & si & Ec & Ek). rewrite Ec. exact Ek.
  - intros en p rq I0 P0 [(t & T & A & _)|[V _]]; [left; eauto|]. right. intros n ->. rewrite (Si _ en _ _ I0 eq_refl) in P0. destruct (simple_request _ _ P0) as (si & sig & kl & j & I1 & S1 & _ & Ij & Uj). pose proof (keys_digest _ _ _ S1 (Dg _ _ V I1)) as K. rewrite K in Ij.
    destruct Ij as [[Rj ->]|[Nr _]]; [|exfalso; apply Nr; left; reflexivity]. exists digestIdentity. split; [right; exact Rj|exact Uj].
  - exists p, z. splits; auto.
Qed.
Print Assumptions C75_namespace.

(* ---- examples ---- with the toy std::regex of T_Regex *)
Example C73_std : forall uf, std_regex toy_count toy_match uf.
Proof. intro uf. unfold std_regex. splits; [apply toy_dot_star|apply toy_literals|discriminate]. Qed.
Local Definition node (k d : String.string) (l : list (bytes * cfg)) : bytes * cfg := (str k, Cfg (str d) l).
Local Definition leaf (k d : String.string) : bytes * cfg := node k d [].
Local Definition k8 (s : String.string) : key := (8, str s).
(* rule { id r1 for data filter { type name name /a relation is-prefix-of }
          checker { type customized sig-type rsa-sha256 key-locator { type name name /a relation equal } }
          checker { type hierarchical sig-type ecdsa-sha256 } }
   trust-anchor { type file file-name x.cert refresh 1h } *)
Local Definition cfg1 : cfg := Cfg []
  [node "rule" "" [leaf "id" "r1"; leaf "for" "data"; node "filter" "" [leaf "type" "name"; leaf "name" "/a"; leaf "relation" "is-prefix-of"];
     node "checker" "" [leaf "type" "customized"; leaf "sig-type" "rsa-sha256"; node "key-locator" "" [leaf "type" "name"; leaf "name" "/a"; leaf "Relation" "equal"]];
     node "checker" "" [leaf "type" "hierarchical"; leaf "sig-type" "ecdsa-sha256"]];
   node "trust-anchor" "" [leaf "type" "file"; leaf "file-name" "x.cert"; leaf "refresh" "1h"]].
Local Definition rule1 : srule := mkSR true [SFName [k8 "a"] IS_PREFIX_OF] [(1, SCName [k8 "a"] EQUAL); (3, SCHier)].
Local Definition says1 : list section := [SRule rule1; SAnchor (EAnchorFile (str "x.cert") (3600 * 10 ^ 9) false)].
Local Definition name_a : name := match nm_fromUri (str "/a") with Ok n => n | Err _ => mkName [] None end.
Example C73_text_ex : config_text toy_count cfg1 says1.
Proof.
  unfold config_text, cfg1, says1. cbn [kids]. constructor; [|constructor; [|constructor]].
  - apply XT_rule; [reflexivity|]. unfold rule_text. cbn [node kids snd]. exists (leaf "id" "r1"), (leaf "for" "data"), [node "filter" "" [leaf "type" "name"; leaf "name" "/a"; leaf "relation" "is-prefix-of"]]. eexists. split; [reflexivity|]. splits; try reflexivity; [| |discriminate].
    + constructor; [|constructor]. split; [reflexivity|]. change [k8 "a"] with (nkey name_a). apply FT_name; try reflexivity. now apply RT_prefix.
    + constructor; [|constructor; [|constructor]]; (split; [reflexivity|]).
      * eapply CT_locator; [reflexivity|reflexivity|apply ST_rsa; reflexivity|reflexivity|]. change [k8 "a"] with (nkey name_a). apply LT_name; try reflexivity. now apply RT_equal.
      * apply CT_hier; [reflexivity|reflexivity|]. apply ST_ecdsa; reflexivity.
  - apply XT_anchor; [reflexivity|]. cbn [node kids snd]. eapply AT_file; try reflexivity. change (3600 * 10 ^ 9)%Z with (1 * (3600 * 10 ^ 9))%Z. eapply (RF_period _ (str "1") x68); try reflexivity; [|constructor]. exists [], (str "1"). splits; try reflexivity; try discriminate; [|now left]. repeat constructor; cbn; discriminate.
Qed.
Local Definition pol1 : vpol := fst (fst (vp_load toy_count (fun _ => None) cfg1 vp_new)).
Example C73_use_ex : in_use toy_count toy_match ALTERNATE 100 says1 pol1.
Proof. apply IU_load; [constructor|exact C73_text_ex|]. eapply (C73_accepted _ toy_match ALTERNATE); [apply C73_std|exact C73_text_ex|]. repeat constructor. Qed.
Local Definition nm (l : list String.string) : name := mkName (map g l) None.
Local Definition by_key (t : N) (l : list String.string) : siginfo := si_of t (Some (mkKL (KlName (nm l)) None)).
(* /a/b signed by /a/KEY/1: by the first checker (RSA), by the second (ECDSA); not by /a/c/KEY/1; not by HMAC *)
Example C73_decisions_ex :
  map (fun si => snd (vp_check toy_match ALTERNATE 100 (PData (nm ["a"; "b"]%string) si) pol1))
    [by_key 1 ["a"; "KEY"; "1"]; by_key 3 ["a"; "KEY"; "1"; "i"; "v"]; by_key 3 ["a"; "c"; "KEY"; "1"]; by_key 4 ["a"; "KEY"; "1"]; si_of 0 None]%string =
  [PARequest (certRequest (map g ["a"; "KEY"; "1"]%string)); PARequest (certRequest (map g ["a"; "KEY"; "1"; "i"; "v"]%string)); PAFail VE_POLICY_ERROR; PAFail VE_POLICY_ERROR; PAFail VE_POLICY_ERROR].
Proof. vm_compute. reflexivity. Qed.
Example C73_exact_ex : let p := PData (nm ["a"; "b"]%string) (by_key 3 ["a"; "KEY"; "1"]%string) in let kl := map g ["a"; "KEY"; "1"]%string in
  ~ In SAny says1 /\ signed_as (by_key 3 ["a"; "KEY"; "1"]%string) 3 kl /\ deep_enough 100 (pp_name p) /\ deep_enough 100 kl /\ (forall r, In r (rules_for p says1) -> decided_by toy_count toy_match ALTERNATE p kl r) /\
  allowed toy_count toy_match ALTERNATE p 3 kl says1.
Proof.
  intros p kl. splits.
  - intros [X|[X|[]]]; discriminate.
  - split; [reflexivity|]. right. split; [discriminate|]. eexists. eexists. splits; reflexivity.
  - split; [cbn; lia|reflexivity].
  - split; [cbn; lia|reflexivity].
  - intros r [<-|[]]. split; [repeat constructor|]. intros n c _ [<-|[<-|[]]]; cbn [snd decided].
    + exists [k8 "a"]. right. split; [intros [X|X]; discriminate|]. exists [k8 "1"]. splits; [reflexivity|vm_compute; discriminate|]. intros [X|[]]. discriminate.
    + split; [reflexivity|]. assert (U : forall i, key_of (keys kl) i -> i = [k8 "a"]).
      { intros i (t & E & L). destruct i as [|x i]; [discriminate|]. cbn [keys map kl app] in E. apply cons_inj in E. destruct E as [<- E]. destruct i as [|y i]; [reflexivity|]. cbn [app] in E. apply cons_inj in E. destruct E as [<- E]. destruct i as [|z i]; [discriminate|]. cbn [app] in E. apply cons_inj in E. destruct E as [_ E]. now destruct i. }
      intros i j Hi Hj. now rewrite (U i Hi), (U j Hj).
  - exists [], rule1, []. splits; [reflexivity|intros x []| |].
    + right. exists (map g ["a"; "b"]%string), (SFName [k8 "a"] IS_PREFIX_OF). splits; [exact (AN_data _ _)|now left|]. exists [k8 "b"]. reflexivity.
    + exists (map g ["a"; "b"]%string), SCHier. splits; [exact (AN_data _ _)|right; now left|]. exists [k8 "a"]. split; [exists [k8 "1"]; split; [reflexivity|vm_compute; split; discriminate]|]. exists [k8 "b"]. reflexivity.
Qed.

(* What does not hold.  An exception leaves checkPolicy(), hence validate() or the event loop, if a name checker meets a KeyLocator without an identity: *)
Theorem C73_throw_refuted : exists l v p, in_use toy_count toy_match ALTERNATE 100 l v /\ snd (vp_check toy_match ALTERNATE 100 p v) = PAThrow ETlv.
Proof. exists says1, pol1, (PData (nm ["a"; "b"]%string) (by_key 1 ["a"]%string)). split; [exact C73_use_ex|vm_compute; reflexivity]. Qed.
Print Assumptions C73_throw_refuted.
(* The decision may depend on the packets checked before, if a hyper-relation refers to a group that takes no part in the match: /b signed by /a/KEY/1 is rejected at first,
   but accepted after /b/a was checked (checker { type customized key-locator { type name hyper-relation { k-regex ^(<>)<KEY><>$ k-expand \1 h-relation equal
   p-regex ^<b>(<a>)*$ p-expand \1 } } }) *)
Local Definition cfg2 : cfg := Cfg []
  [node "rule" "" [leaf "id" "r2"; leaf "for" "data"; node "checker" "" [leaf "type" "customized"; node "key-locator" "" [leaf "type" "name"; node "hyper-relation" ""
     [leaf "k-regex" "^(<>)<KEY><>$"; leaf "k-expand" "\1"; leaf "h-relation" "equal"; leaf "p-regex" "^<b>(<a>)*$"; leaf "p-expand" "\1"]]]]].
Local Definition pol2 : vpol := fst (fst (vp_load toy_count (fun _ => None) cfg2 vp_new)).
Theorem C73_history_refuted : exists l v p p0, in_use toy_count toy_match ALTERNATE 100 l v /\ snd (vp_check toy_match ALTERNATE 100 p v) = PAFail VE_POLICY_ERROR /\
  exists rq, snd (vp_check toy_match ALTERNATE 100 p (fst (vp_check toy_match ALTERNATE 100 p0 v))) = PARequest rq.
Proof.
  assert (Ok2 : snd (vp_load toy_count (fun _ => None) cfg2 vp_new) = Ok tt) by (vm_compute; reflexivity).
  destruct (C73_load toy_count toy_match ALTERNATE 100 (fun _ => None) cfg2 vp_new (C73_std _) (R_new _ _ _ _) Ok2) as (l & T & _). exists l, pol2, (PData (nm ["b"]%string) (by_key 3 ["a"; "KEY"; "1"]%string)), (PData (nm ["b"; "a"]%string) (by_key 3 ["a"; "KEY"; "1"]%string)).
  splits; [apply IU_load; auto; constructor|vm_compute; reflexivity|]. eexists. vm_compute. reflexivity.
Qed.
Print Assumptions C73_history_refuted.
(* load() that fails leaves what came before the error in force: here trust-anchor { type any }, so that every packet is accepted *)
Theorem C73_failed_load_refuted : exists c v e, snd (vp_load toy_count (fun _ => None) c vp_new) = Err e /\ v = fst (fst (vp_load toy_count (fun _ => None) c vp_new)) /\ forall p, snd (vp_check toy_match ALTERNATE 100 p v) = PABypass.
Proof. exists (Cfg [] [node "trust-anchor" "" [leaf "type" "any"]; node "rules" "" []]). eexists. exists ERuntime. splits; [vm_compute; reflexivity|reflexivity|]. intro p. reflexivity. Qed.
Print Assumptions C73_failed_load_refuted.
(* A refresh period that is the empty string is undefined behaviour *)
Theorem C73_refresh_refuted : exists c, snd (vp_load toy_count (fun _ => None) c vp_new) = Err EUb.
Proof. exists (Cfg [] [node "trust-anchor" "" [leaf "type" "dir"; leaf "dir" "anchors"; leaf "refresh" ""]]). vm_compute. reflexivity. Qed.
Print Assumptions C73_refresh_refuted.

(* C74: the trust anchor /A/KEY/k/self/1 signs /A/B/KEY/k/A/1, which signs /A/B/c *)
Local Definition cfg3 : cfg := Cfg [] [node "rule" "" [leaf "id" "r3"; leaf "for" "data"; node "checker" "" [leaf "type" "hierarchical"]]; node "rule" "" [leaf "id" "r4"; leaf "for" "interest"; node "checker" "" [leaf "type" "hierarchical"]]].
Local Definition says3 : list section := [SRule (mkSR true [] [(3, SCHier)]); SRule (mkSR false [] [(3, SCHier)])].
Local Definition pol3 : vpol := fst (fst (vp_load toy_count (fun _ => None) cfg3 vp_new)).
Example C74_text_ex : config_text toy_count cfg3 says3 /\ hierarchical says3 /\ in_use toy_count toy_match ALTERNATE 100 says3 pol3.
Proof.
  assert (T : config_text toy_count cfg3 says3).
  { unfold config_text, cfg3, says3. cbn [kids]. assert (X : forall i u d, for_text (str u) d -> rule_text toy_count [leaf "id" i; leaf "for" u; node "checker" "" [leaf "type" "hierarchical"]] (mkSR d [] [(3, SCHier)])).
    { intros i u d F. exists (leaf "id" i), (leaf "for" u), [], [node "checker" "" [leaf "type" "hierarchical"]]. splits; try reflexivity; [exact F|constructor| |discriminate]. constructor; [|constructor]. split; [reflexivity|]. apply CT_hier; [reflexivity|reflexivity|]. apply ST_default. intros (p & l & X & _). discriminate. }
    constructor; [|constructor; [|constructor]]; (apply XT_rule; [reflexivity|]); cbn [node kids snd]; apply X; reflexivity. }
  splits; [exact T|repeat constructor|]. apply IU_load; [constructor|exact T|vm_compute; reflexivity].
Qed.
Local Definition kn3 (l : list String.string) : list key := map k8 l.
Local Definition crt3 (l : list String.string) : cert := mkCert (mkPkt (kn3 l) [nb 1]) (Some (0, 1000)%Z).
Local Definition anchorA : list String.string := ["A"; "KEY"; "k"; "self"; "1"]%string.
Local Definition certB : list String.string := ["A"; "B"; "KEY"; "k"; "A"; "1"]%string.
Local Definition content3 (pn pk : list String.string) (it : vitem) : ppkt :=
  match it with
  | VPkt _ => PData (nm pn) (by_key 3 pk)
  | VCert c => PData (mkName (map (fun k => mkComp (fst k) None (snd k)) (ct_name c)) None) (by_key 3 ["A"; "KEY"; "k"]%string)
  end.
Local Lemma keys_back : forall l : list key, keys (map (fun k => mkComp (fst k) None (snd k)) l) = l.
Proof. induction l as [|[a b] l IH]; [reflexivity|]. cbn [map keys]. fold (keys (map (fun k => mkComp (fst k) None (snd k)) l)). now rewrite IH. Qed.
Local Definition ver3 (it : vitem) (t : option cert) : bool :=
  match it, t with VPkt _, Some c => names_eqb (ct_name c) (kn3 certB) | VCert c, Some t => names_eqb (ct_name c) (kn3 certB) && names_eqb (ct_name t) (kn3 anchorA) | _, None => false end.
Local Definition pn3 : list String.string := ["A"; "B"; "c"]%string.
Local Definition at3 (f : ppkt -> pans) (content : vitem -> ppkt) (t : Z) : venv := mkEn t t (fun _ => []) [] (fun it _ => f (content it)).
Local Definition evs3 (f : ppkt -> pans) : list vevent :=
  let at' := at3 f (content3 pn3 ["A"; "B"; "KEY"; "k"]%string) in
  [VAnch (TAIns 0 (crt3 anchorA)); VStart (at' 10%Z) (mkVP false 7 0 true)].
Local Definition last3 (f : ppkt -> pans) : vevent := VData (at3 f (content3 pn3 ["A"; "B"; "KEY"; "k"]%string) 40%Z) 0 (ct_pk (crt3 certB)) (Some (Some (0, 100)%Z)).
Local Definition by3 (p : ppkt) : pans := snd (vp_check toy_match ALTERNATE 100 p pol3).
Example C74_ex : let content := content3 pn3 ["A"; "B"; "KEY"; "k"]%string in
  contents content /\ configured toy_count toy_match ALTERNATE 100 says3 content (last3 by3 :: rev (evs3 by3)) /\ Forall steady (evs3 by3 ++ [last3 by3]) /\
  exists s outs s', run ver3 3 FNetwork (evs3 by3) vs_new = Ok (s, outs) /\ step ver3 3 FNetwork (last3 by3) s = Ok (s', [OVerdict 0 VSuccess]).
Proof.
  intros content. splits.
  - intro c. eexists. eexists. split; [reflexivity|]. cbn [n_comps]. apply keys_back.
  - intros e en it chain [<-|[<-|[<-|[]]]] L; cbn [last3 evs3 looks] in L; try discriminate; injection L as <-; exists pol3; (split; [apply C74_text_ex|unfold at3, by3; cbn [en_pol]; reflexivity]).
  - repeat first [apply Forall_nil|apply Forall_cons]; [intros t d []| |]; intros en L; cbn [last3 looks] in L; injection L as <-; cbn [at3 en_steady]; lia.
  - do 3 eexists. split; [vm_compute; reflexivity|vm_compute; reflexivity].
Qed.
(* The namespace of an anchor is its name up to the first KEY, not the last.  The anchor /A/KEY/k/KEY/l/self/1 is a certificate of the identity /A/KEY/k, but packets /A/x that it signs
   are valid, if they name it by the prefix /A/KEY/k: that is like the name of a key of /A *)
Local Definition anchorK : list String.string := ["A"; "KEY"; "k"; "KEY"; "l"; "self"; "1"]%string.
Local Definition verK (it : vitem) (t : option cert) : bool := match it, t with VPkt _, Some c => names_eqb (ct_name c) (kn3 anchorK) | _, _ => false end.
Theorem C74_identity_refuted : exists l content verify c en p s n id t,
  hierarchical l /\ contents content /\ configured toy_count toy_match ALTERNATE 100 l content [VStart en p; VAnch (TAIns 0 c)] /\
  run verify 3 FNetwork [VAnch (TAIns 0 c); VStart en p] vs_new = Ok (s, [[]; [OVerdict 0 VSuccess]]) /\
  about_name (content (VPkt p)) n /\ ct_name c = id ++ KEY :: t /\ nlen t = 3 /\ ~ under id (keys n).
Proof.
  set (content := content3 ["A"; "x"]%string ["A"; "KEY"; "k"]%string). exists says3, content, verK, (crt3 anchorK), (at3 by3 content 10%Z), (mkVP false 7 0 true). eexists. exists (map g ["A"; "x"]%string), (kn3 ["A"; "KEY"; "k"]%string), (kn3 ["l"; "self"; "1"]%string).
  splits.
  - apply C74_text_ex.
  - intro c. eexists. eexists. split; [reflexivity|]. cbn [n_comps]. apply keys_back.
  - intros e en it chain [<-|[<-|[]]] L; cbn [looks] in L; try discriminate; injection L as <-; exists pol3; (split; [apply C74_text_ex|unfold at3, by3; cbn [en_pol]; reflexivity]).
  - vm_compute. reflexivity.
  - exact (AN_data _ _).
  - reflexivity.
  - reflexivity.
  - intros (c & X). discriminate.
Qed.
Print Assumptions C74_identity_refuted.

(* C75: the same chain with ValidationPolicySimpleHierarchy *)
Example C75_ex : let content := content3 pn3 ["A"; "B"; "KEY"; "k"]%string in
  digest_only ver3 content /\ contents content /\ simple content (last3 simple_check :: rev (evs3 simple_check)) /\ Forall steady (evs3 simple_check ++ [last3 simple_check]) /\
  exists s outs s', run ver3 3 FNetwork (evs3 simple_check) vs_new = Ok (s, outs) /\ step ver3 3 FNetwork (last3 simple_check) s = Ok (s', [OVerdict 0 VSuccess]).
Proof.
  intros content. splits.
  - intros [p|c] si V; discriminate.
  - intro c. eexists. eexists. split; [reflexivity|]. cbn [n_comps]. apply keys_back.
  - intros e en it chain [<-|[<-|[<-|[]]]] L; cbn [last3 evs3 looks] in L; try discriminate; injection L as <-; reflexivity.
  - repeat first [apply Forall_nil|apply Forall_cons]; [intros t d []| |]; intros en L; cbn [last3 looks] in L; injection L as <-; cbn [at3 en_steady]; lia.
  - do 3 eexists. split; [vm_compute; reflexivity|vm_compute; reflexivity].
Qed.
Example C75_decisions_ex : map (fun si => simple_check (PData (nm ["a"; "b"]%string) si)) [by_key 1 ["a"; "KEY"; "1"]; by_key 3 ["a"; "b"; "KEY"; "1"; "i"; "v"]; by_key 3 ["a"; "c"; "KEY"; "1"]; by_key 3 ["a"; "b"]; si_of 0 None]%string =
  [PARequest (certRequest (map g ["a"; "KEY"; "1"]%string)); PARequest (certRequest (map g ["a"; "b"; "KEY"; "1"; "i"; "v"]%string)); PAFail VE_POLICY_ERROR; PAFail (VE_OTHER 8); PAFail VE_POLICY_ERROR].
Proof. vm_compute. reflexivity. Qed.
(* Without any trust anchor, a packet below /localhost/identity/digest-sha256 with a digest signature, which anyone can make, is valid *)
Theorem C75_digest_refuted : exists content verify en p s, digest_only verify content /\ contents content /\ simple content [VStart en p] /\ run verify 3 FNetwork [VStart en p] vs_new = Ok (s, [[OVerdict 0 VSuccess]]).
Proof.
  set (content := fun it => match it with VPkt _ => PData (nm ["localhost"; "identity"; "digest-sha256"; "x"]%string) (si_of 0 None) | VCert c => content3 [] [] (VCert c) end).
  exists content, (fun it t => match it, t with VPkt _, None => true | _, _ => false end), (at3 simple_check content 10%Z), (mkVP false 7 0 true). eexists. splits.
  - intros [p|c] si V I; [|discriminate]. inversion I; subst. reflexivity.
  - intro c. eexists. eexists. split; [reflexivity|]. cbn [n_comps]. apply keys_back.
  - intros e en it chain [<-|[]] L. cbn [looks] in L. injection L as <-. reflexivity.
  - vm_compute. reflexivity.
Qed.
Print Assumptions C75_digest_refuted.
