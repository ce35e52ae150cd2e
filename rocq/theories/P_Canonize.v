(* Proofs about canonical FaceUris. *)
From Coq Require Import Lia ZifyBool ZifyNat ZifyN.
From Verif Require Import Base BaseLemmas M_Str P_Str M_FaceUri S_FaceUri P_FaceUri M_Canonize S_Canonize.
Open Scope N_scope.
Open Scope list_scope.

Lemma digitsC : forall p, forallb isDigitC p = true -> forall acc, fst (read_digits p acc) = fold_left (fun v c => v * 10 + (bn c - 48)) p acc.
Proof.
  induction p as [|c p IH]; intros H acc; [reflexivity|]. cbn [forallb] in H. apply andb_true_iff in H as (Hc & Hp). cbn [read_digits fold_left].
  change (isDigit c) with (isDigitC c). rewrite Hc. cbn [fst]. now apply IH.
Qed.
Lemma number_read : forall p, forallb isDigitC p = true -> number p = fst (read_digits p 0).
Proof. intros p H. unfold number. now rewrite digitsC. Qed.
Lemma number_to_string : forall n, number (to_string n) = n.
Proof.
  intro n. rewrite number_read by exact (to_string_digits n). unfold to_string.
  pose proof (dec_digits_read (S (N.size_nat n)) n [] []) as H. rewrite app_nil_r in H. rewrite H; auto; [change (nlen (@nil byte)) with 0; cbn [app read_digits fst]; change (10 ^ 0) with 1; lia|].
  destruct n as [|q]; [reflexivity|]. pose proof (N.size_gt (N.pos q)). unfold N.size_nat. unfold N.size in H0.
  rewrite <- (Nnat.N2Nat.id (N.pos (Pos.size q))) in H0.
  replace (N.to_nat (N.pos (Pos.size q))) with (Pos.size_nat q) in H0.
  - eapply N.lt_le_trans; [exact H0|]. apply N.pow_le_mono_r; lia.
  - clear. induction q; cbn [Pos.size Pos.size_nat]; rewrite ?IHq; lia.
Qed.
Lemma pv_in : forall s, canCanonize s = true <-> In s all_schemes.
Proof.
  intro s. unfold canCanonize, provider_of, pv_table, all_schemes, ip_schemes. cbn [app].
  assert (X : forall t, (match pv_find s t with Some _ => true | None => false end) = true <-> In s (map fst t)).
  { induction t as [|[k p] t IH]; cbn [pv_find map In fst]; [split; [discriminate|contradiction]|].
    destruct (bytes_eqb s k) eqn:E; [apply bytes_eqb_eq in E; subst; tauto|]. rewrite IH. split; [auto|]. intros [->|I]; auto. now rewrite bytes_eqb_refl in E. }
  apply X.
Qed.
Lemma pv_cases : forall s p, provider_of s = Some p ->
  match p with
  | PvUdp => s = str "udp" \/ s = str "udp4" \/ s = str "udp6"
  | PvTcp => s = str "tcp" \/ s = str "tcp4" \/ s = str "tcp6"
  | PvEther => s = str "ether" | PvDev => s = str "dev" | PvUdpDev => s = str "udp4+dev" \/ s = str "udp6+dev"
  end.
Proof.
  intros s p H. unfold provider_of, pv_table in H. cbn [pv_find] in H.
  repeat match type of H with (if bytes_eqb s ?k then _ else _) = _ => destruct (bytes_eqb s k) eqn:?E; [apply bytes_eqb_eq in E; injection H as <-; auto|clear E] end. discriminate.
Qed.
Lemma two_iff : forall s a b, two_fields s = Some (a, b) <-> s = a ++ uPercent :: b /\ ~ In uPercent a /\ ~ In uPercent b.
Proof.
  intros s a b. unfold two_fields. destruct (split_at uPercent s) as [[x y]|] eqn:E.
  - pose proof E as E0. apply split_iff in E as (-> & N). destruct (split_at uPercent y) as [[? ?]|] eqn:F.
    + split; [discriminate|]. intros (Q & A & B). assert (G : split_at uPercent (x ++ uPercent :: y) = Some (a, b)) by (apply split_iff; auto). rewrite E0 in G. injection G as -> ->. apply split_no in B. congruence.
    + apply split_no in F. split; [intro Q; injection Q as <- <-; auto|]. intros (Q & A & B). assert (G : split_at uPercent (x ++ uPercent :: y) = Some (a, b)) by (apply split_iff; auto). rewrite E0 in G. congruence.
  - apply split_no in E. split; [discriminate|]. intros (-> & _). exfalso. apply E. apply in_or_app. right. now left.
Qed.
Lemma text_ok_text : forall a h, text_ok a h = true -> h = ip_text a.
Proof.
  intros a h. unfold text_ok. destruct (ip_v4 a || negb (ip_ll a)); [intro H; apply bytes_eqb_eq in H; auto|].
  destruct (two_fields (ip_text a)) as [[x z]|] eqn:E; [|discriminate]. destruct (two_fields h) as [[x' z']|] eqn:F; [|discriminate].
  destruct (_ && _); [discriminate|]. rewrite andb_true_iff, !bytes_eqb_eq. intros (-> & ->). apply two_iff in E as (-> & _). apply two_iff in F as (-> & _). reflexivity.
Qed.
Lemma text_ok_self : forall mk a, regular mk a -> text_ok a (ip_text a) = true.
Proof.
  intros mk a (_ & R). unfold text_ok. destruct (ip_v4 a) eqn:V; cbn [orb]; [apply bytes_eqb_refl|]. destruct (ip_ll a) eqn:L; cbn [negb]; [|apply bytes_eqb_refl].
  destruct (R eq_refl eq_refl) as (x & z & E & X & Z & N). assert (T : two_fields (ip_text a) = Some (x, z)) by (apply two_iff; auto). rewrite T.
  destruct (Nat.ltb 2 (length z)) eqn:Lz; cbn [andb]; [|now rewrite !bytes_eqb_refl]. destruct (after (str "25") z) as [r|] eqn:Af; [|now rewrite !bytes_eqb_refl].
  exfalso. apply after_iff in Af. apply N. destruct r as [|c r]; [subst z; discriminate|]. eauto.
Qed.
Lemma to_string_ne : forall n, to_string n <> [].
Proof. intro n. destruct (to_string_cons n) as (c & s & -> & _). discriminate. Qed.

Section P.
Variable scan : bytes -> eth.
Variable mkaddr : bytes -> option ipaddr.
Variable resolve : bytes -> selector -> ipaddr + bytes.
Notation canonize := (canonize scan mkaddr resolve).
Notation isCanonical := (isCanonical scan mkaddr).
Notation names := (names mkaddr resolve).

Lemma ip_uri_canonical : forall tcp a p, regular mkaddr a -> ip_allowed tcp a = true -> ip_canonical mkaddr tcp (ip_uri tcp a p) = true.
Proof.
  intros tcp a p R A. unfold ip_canonical, ip_uri, fu_endpoint. cbn [fu_port fu_path fu_host fu_scheme]. destruct (to_string p) eqn:E; [now apply to_string_ne in E|].
  rewrite (proj1 R), A, (text_ok_self mkaddr a R). destruct (ip_v4 a); rewrite bytes_eqb_refl; cbn [negb andb orb]; rewrite ?orb_true_r, ?andb_true_r; reflexivity.
Qed.
(* what success of an IP provider means *)
Definition ip_result (tcp : bool) (u u' : faceuri) (a : ipaddr) : Prop :=
  names u a /\ fu_host u' = ip_text a /\ fu_scheme u' = with_family (ip_base tcp) a /\ ip_allowed tcp a = true /\ fu_path u' = [] /\
  match fu_port u with [] => fu_port u' = if ip_multi a then str "56363" else str "6363" | _ => number (fu_port u') = number (fu_port u) end.
Lemma on_dns_inv : forall tcp u u' a, forallb isDigitC (fu_port u) = true -> names u a -> on_dns tcp u a = CSuccess u' -> ip_result tcp u u' a /\ exists p, u' = ip_uri tcp a p.
Proof.
  intros tcp u u' a D N H. unfold on_dns in H. destruct (ip_allowed tcp a) eqn:A; cbn [negb] in H; [|discriminate]. unfold ip_result.
  assert (F : forall p, fu_scheme (ip_uri tcp a p) = with_family (ip_base tcp) a) by (intro p; unfold ip_uri, fu_endpoint, with_family; cbn [fu_scheme]; destruct (ip_v4 a); reflexivity).
  destruct (fu_port u) as [|x q] eqn:P.
  - injection H as <-. split; [|eauto]. splits; auto. destruct (ip_multi a); reflexivity.
  - destruct (port_value (x :: q)) as [v|] eqn:V; [|discriminate]. injection H as <-. split; [|eauto]. splits; auto. unfold ip_uri, fu_endpoint. cbn [fu_port]. rewrite number_to_string, number_read by exact D.
    unfold port_value in V. destruct (_ <? _); [|discriminate]. now injection V as <-.
Qed.
Lemma ip_inv : forall tcp u u', forallb isDigitC (fu_port u) = true -> ip_canonize mkaddr resolve tcp u = CSuccess u' ->
  exists a, ip_result tcp u u' a /\ ((u' = u /\ ip_canonical mkaddr tcp u = true) \/ exists p, u' = ip_uri tcp a p).
Proof.
  intros tcp u u' D H. unfold ip_canonize in H. destruct (ip_canonical mkaddr tcp u) eqn:C.
  - injection H as <-. pose proof C as C0. unfold ip_canonical in C. destruct (fu_port u) as [|x q] eqn:P; [discriminate|]. destruct (fu_path u) eqn:Q; [|discriminate].
    destruct (mkaddr (unescapeHost (fu_host u))) as [a|] eqn:M; [|discriminate]. apply andb_true_iff in C as (C & A). apply andb_true_iff in C as (S & T). apply text_ok_text in T.
    exists a. split; [|auto]. unfold ip_result. rewrite P. splits; auto; [left; auto|]. unfold with_family. apply orb_true_iff in S as [S|S]; apply andb_true_iff in S as (S & V); apply bytes_eqb_eq in S; rewrite S.
    + rewrite V. reflexivity.
    + apply negb_true_iff in V. rewrite V. reflexivity.
  - cbv zeta in H. destruct (mkaddr (unescapeHost (fu_host u))) as [a|] eqn:M.
    + destruct (_ || _); [discriminate|]. exists a. destruct (on_dns_inv tcp u u' a D) as (R & E); auto. left. exact M.
    + destruct (resolve _ _) as [a|r] eqn:R; [|discriminate]. exists a. destruct (on_dns_inv tcp u u' a D) as (R' & E); auto. right. split; eauto.
Qed.
Lemma ip_family : forall tcp u u', resolver_ok resolve -> ip_canonize mkaddr resolve tcp u = CSuccess u' ->
  (fu_scheme u = v4_scheme tcp \/ fu_scheme u = v6_scheme tcp) -> fu_scheme u' = fu_scheme u.
Proof.
  intros tcp u u' (R4 & R6) H S. unfold ip_canonize in H. destruct (ip_canonical mkaddr tcp u); [now injection H as <-|]. cbv zeta in H.
  assert (D : forall a, on_dns tcp u a = CSuccess u' -> fu_scheme u' = if ip_v4 a then v4_scheme tcp else v6_scheme tcp).
  { intros a E. unfold on_dns in E. destruct (negb _); [discriminate|]. destruct (fu_port u); [injection E as <-; reflexivity|]. destruct (port_value _); [injection E as <-; reflexivity|discriminate]. }
  assert (N : bytes_eqb (v4_scheme tcp) (v6_scheme tcp) = false /\ bytes_eqb (v6_scheme tcp) (v4_scheme tcp) = false) by (destruct tcp; split; reflexivity). destruct N as (N1 & N2).
  destruct (mkaddr _) as [a|].
  - destruct S as [S|S]; rewrite S in H; rewrite ?N1, ?N2, bytes_eqb_refl in H; cbn [andb orb] in H; rewrite S.
    + destruct (ip_v4 a) eqn:V; cbn [negb orb] in H; [|discriminate]. apply D in H. now rewrite V in H.
    + destruct (ip_v4 a) eqn:V; cbn [negb orb] in H; [discriminate|]. apply D in H. now rewrite V in H.
  - destruct S as [S|S]; rewrite S in H; rewrite ?N1, ?N2, bytes_eqb_refl in H; rewrite S; destruct (resolve _ _) as [a|r] eqn:R; try discriminate; apply D in H.
    + now rewrite (R4 _ _ R) in H.
    + now rewrite (R6 _ _ R) in H.
Qed.
Lemma parsed_port : forall s u, fu_parse s = Some u -> forallb isDigitC (fu_port u) = true.
Proof.
  intros s u H. apply parse_iff in H. destruct H as [s au path v6 h p Sc Na Pa Nq A]. cbn [fu_port].
  assert (X : forall t q, port t q -> forallb isDigitC q = true).
  { intros t q [(_ & ->)|(_ & (_ & F))]; [reflexivity|]. apply forallb_forall. rewrite Forall_forall in F. intros x I. apply digit_iff. now apply F. }
  destruct A; eauto.
Qed.
Lemma parsed_colon : forall s u, fu_parse s = Some u -> In uColon (fu_host u) -> fu_v6 u = true.
Proof.
  intros s u H. apply parse_iff in H. destruct H as [s au path v6 h p Sc Na Pa Nq A]. cbn [fu_host fu_v6]. intro I. destruct A as [|h t p V P|h t p Q P|h t p M X P].
  - destruct I.
  - reflexivity.
  - destruct (quad_plain h Q) as ((_ & F) & _). rewrite Forall_forall in F. now destruct (F _ I).
  - destruct M as (_ & F). rewrite Forall_forall in F. now destruct (F _ I).
Qed.
Lemma provider_parts : forall tcp a, provider_of (with_family (ip_base tcp) a) = Some (if tcp then PvTcp else PvUdp).
Proof. intros tcp a. unfold with_family. destruct tcp, (ip_v4 a); reflexivity. Qed.
Lemma canonical_result : forall s u u', fu_parse s = Some u -> (forall a, scan (eth_text a) = a) -> (forall a, names u a -> regular mkaddr a) ->
  canonize u = CSuccess u' -> isCanonical u' = true.
Proof.
  intros s u u' Hp Hs Hr H. apply parsed_port in Hp. unfold M_Canonize.canonize in H. destruct (provider_of (fu_scheme u)) as [p|] eqn:P; [|discriminate].
  assert (IP : forall tcp : bool, provider_of (fu_scheme u) = Some (if tcp then PvTcp else PvUdp) -> ip_canonize mkaddr resolve tcp u = CSuccess u' -> isCanonical u' = true).
  { intros tcp Pt Hi. destruct (ip_inv tcp u u' Hp Hi) as (a & R & [(-> & C)|(p' & ->)]).
    - unfold M_Canonize.isCanonical. rewrite Pt. now destruct tcp.
    - destruct R as (N & _ & F & A & _). unfold M_Canonize.isCanonical. rewrite F, provider_parts. pose proof (ip_uri_canonical tcp a p' (Hr a N) A). now destruct tcp. }
  destruct p.
  - now apply (IP false).
  - now apply (IP true).
  - unfold eth_canonize in H. destruct (eth_null _); [discriminate|]. injection H as <-. unfold M_Canonize.isCanonical, eth_uri, fu_ether. cbn [fu_scheme].
    change (provider_of (str "ether")) with (Some PvEther). cbv iota. unfold eth_canonical. cbn [fu_port fu_path fu_host].
    change (ether_text (e0 (scan (fu_host u))) (e1 (scan (fu_host u))) (e2 (scan (fu_host u))) (e3 (scan (fu_host u))) (e4 (scan (fu_host u))) (e5 (scan (fu_host u)))) with (eth_text (scan (fu_host u))).
    rewrite Hs. apply bytes_eqb_refl.
  - unfold dev_canonize in H. destruct (fu_host u) as [|x h]; [discriminate|]. destruct (fu_port u); [|discriminate].
    assert (E : u' = fu_dev (x :: h)) by (destruct (fu_path u); [congruence|destruct (bytes_eqb _ _); congruence]). subst u'. reflexivity.
  - unfold udpdev_canonize in H. destruct (udpdev_canonical u) eqn:C; [|discriminate]. injection H as <-. unfold M_Canonize.isCanonical. now rewrite P.
Qed.
Lemma identity : forall s u, fu_parse s = Some u -> isCanonical u = true -> (fu_scheme u = str "dev" -> fu_v6 u = false) ->
  (fu_scheme u = str "ether" -> eth_null (scan (fu_host u)) = false) -> canonize u = CSuccess u.
Proof.
  intros s u Hp C Dv Et. unfold M_Canonize.isCanonical in C. unfold M_Canonize.canonize. destruct (provider_of (fu_scheme u)) as [p|] eqn:P; [|discriminate]. apply pv_cases in P. destruct p.
  - unfold ip_canonize. now rewrite C.
  - unfold ip_canonize. now rewrite C.
  - unfold eth_canonize. rewrite (Et P). unfold eth_canonical in C. pose proof (parsed_colon s u Hp) as V. destruct u as [sc h pt pa v6]. cbn [fu_scheme fu_host fu_port fu_path fu_v6] in *. destruct pt; [|discriminate]. destruct pa; [|discriminate].
    apply bytes_eqb_eq in C. subst sc. rewrite V; [|rewrite <- C; right; right; left; reflexivity]. unfold eth_uri, fu_ether. fold (eth_text (scan h)). now rewrite C.
  - unfold dev_canonize. unfold dev_canonical in C. specialize (Dv P). destruct u as [sc h pt pa v6]. cbn [fu_scheme fu_host fu_port fu_path fu_v6] in *. subst. destruct h; [discriminate|]. destruct pt; [|discriminate]. destruct pa; [|discriminate]. reflexivity.
  - unfold udpdev_canonize. now rewrite C.
Qed.
Lemma ip_success : forall s u u' base, fu_parse s = Some u -> canonize u = CSuccess u' ->
  (base = str "udp" \/ base = str "tcp") -> (fu_scheme u = base \/ fu_scheme u = base ++ str "4" \/ fu_scheme u = base ++ str "6") ->
  exists a, names u a /\ fu_host u' = ip_text a /\ fu_scheme u' = with_family base a /\ (base = str "tcp" -> ip_multi a = false) /\ fu_path u' = [] /\
    match fu_port u with [] => fu_port u' = if ip_multi a then str "56363" else str "6363" | _ => number (fu_port u') = number (fu_port u) end.
Proof.
  intros s u u' base Hp H B S. apply parsed_port in Hp. assert (exists tcp, base = ip_base tcp) as (tcp & ->) by (destruct B as [-> | ->]; [now exists false|now exists true]).
  assert (Hi : ip_canonize mkaddr resolve tcp u = CSuccess u').
  { unfold M_Canonize.canonize in H. destruct S as [S|[S|S]]; rewrite S in H; destruct tcp; exact H. }
  destruct (ip_inv tcp u u' Hp Hi) as (a & (N & X1 & X2 & A & X3 & X4) & _). exists a. splits; auto. intro E. unfold ip_allowed in A. destruct tcp; [|discriminate]. now destruct (ip_multi a).
Qed.
Lemma same_scheme : forall u u', resolver_ok resolve -> canonize u = CSuccess u' -> fu_scheme u <> str "udp" -> fu_scheme u <> str "tcp" -> fu_scheme u' = fu_scheme u.
Proof.
  intros u u' R H N1 N2. unfold M_Canonize.canonize in H. destruct (provider_of (fu_scheme u)) as [p|] eqn:P; [|discriminate]. apply pv_cases in P. destruct p.
  - destruct P as [P|P]; [contradiction|]. apply (ip_family false u u' R H). exact P.
  - destruct P as [P|P]; [contradiction|]. apply (ip_family true u u' R H). exact P.
  - unfold eth_canonize in H. destruct (eth_null _); [discriminate|]. injection H as <-. now rewrite P.
  - unfold dev_canonize in H. destruct (fu_host u); [discriminate|]. destruct (fu_port u); [|discriminate]. assert (E : u' = fu_dev (b :: b0)) by (destruct (fu_path u); [congruence|destruct (bytes_eqb _ _); congruence]). subst u'. now rewrite P.
  - unfold udpdev_canonize in H. destruct (udpdev_canonical u); [|discriminate]. now injection H as <-.
Qed.
Lemma succeeds : forall s u base sel a, fu_parse s = Some u -> (base = str "udp" \/ base = str "tcp") -> asks base (fu_scheme u) sel -> found mkaddr resolve u sel a ->
  (base = str "tcp" -> ip_multi a = false) -> number (fu_port u) < 65536 -> exists u', canonize u = CSuccess u'.
Proof.
  intros s u base sel a Hp B K F T L. apply parsed_port in Hp. rewrite number_read in L by exact Hp. assert (exists tcp, base = ip_base tcp) as (tcp & ->) by (destruct B as [-> | ->]; [now exists false|now exists true]).
  assert (E : canonize u = ip_canonize mkaddr resolve tcp u) by (unfold M_Canonize.canonize; destruct K as [(-> & _)|[(-> & _)|(-> & _)]]; destruct tcp; reflexivity). rewrite E. clear E.
  assert (D : exists u', on_dns tcp u a = CSuccess u').
  { unfold on_dns. assert (ip_allowed tcp a = true) as -> by (unfold ip_allowed; destruct tcp; [rewrite T by reflexivity|]; reflexivity). cbn [negb]. destruct (fu_port u) as [|x q] eqn:P; [eauto|].
    unfold port_value. apply N.ltb_lt in L. rewrite L. eauto. }
  unfold ip_canonize. destruct (ip_canonical mkaddr tcp u); [eauto|]. cbv zeta.
  assert (N : bytes_eqb (v4_scheme tcp) (v6_scheme tcp) = false /\ bytes_eqb (v6_scheme tcp) (v4_scheme tcp) = false /\ bytes_eqb (ip_base tcp) (v4_scheme tcp) = false /\ bytes_eqb (ip_base tcp) (v6_scheme tcp) = false) by (destruct tcp; repeat split; reflexivity). destruct N as (N1 & N2 & N3 & N4).
  assert (Q : (if bytes_eqb (fu_scheme u) (v4_scheme tcp) then SV4 else if bytes_eqb (fu_scheme u) (v6_scheme tcp) then SV6 else SAny) = sel /\
    (bytes_eqb (fu_scheme u) (v4_scheme tcp) = true -> sel = SV4) /\ (bytes_eqb (fu_scheme u) (v6_scheme tcp) = true -> sel = SV6)).
  { destruct K as [(-> & ->)|[(-> & ->)|(-> & ->)]]; fold (v4_scheme tcp) (v6_scheme tcp); rewrite ?N1, ?N2, ?N3, ?N4, ?bytes_eqb_refl; splits; auto; discriminate. }
  destruct Q as (Q1 & Q2 & Q3). destruct F as [(M & F4 & F6)|(M & R)]; rewrite M.
  - destruct (_ || _) eqn:X; [|exact D]. exfalso. apply orb_true_iff in X as [X|X]; apply andb_true_iff in X as (X & V); [rewrite (F4 (Q2 X)) in V|rewrite (F6 (Q3 X)) in V]; discriminate.
  - rewrite Q1, R. exact D.
Qed.
Lemma readable : forall s u u', fu_parse s = Some u -> canonize u = CSuccess u' -> (fu_scheme u = str "dev" -> fu_v6 u = false) ->
  (forall a, names u a -> if ip_v4 a then quad_host (ip_text a) else v6_host (ip_text a)) -> fu_parse (fu_print u') = Some u'.
Proof.
  intros s u u' Hp H Dv W. pose proof (parsed_port _ _ Hp) as D. pose proof (round_trip _ _ Hp) as RT. unfold M_Canonize.canonize in H. destruct (provider_of (fu_scheme u)) as [p|] eqn:P; [|discriminate]. apply pv_cases in P.
  assert (IP : forall tcp, ip_canonize mkaddr resolve tcp u = CSuccess u' -> fu_parse (fu_print u') = Some u').
  { intros tcp Hi. destruct (ip_inv tcp u u' D Hi) as (a & R & [(-> & _)|(q & ->)]); [exact RT|]. destruct R as (N & _). specialize (W a N).
    assert (Dq : many digit (to_string q)) by (split; [apply to_string_ne|apply Forall_forall; intros x I; apply digit_iff; pose proof (to_string_digits q) as G; rewrite forallb_forall in G; now apply G]).
    unfold ip_uri. destruct (ip_v4 a); cbn [negb]; [apply quad_trip|apply v6_trip]; auto; apply scheme_iff; destruct tcp; reflexivity. }
  destruct p; eauto.
  - unfold eth_canonize in H. destruct (eth_null _); [discriminate|]. injection H as <-. apply ether_trip.
  - unfold dev_canonize in H. specialize (Dv P). apply parse_iff in Hp. destruct Hp as [sc au path v6 h p Sc Na Pa Nq A]. cbn [fu_scheme fu_host fu_port fu_path fu_v6] in *. subst v6.
    destruct h as [|x h]; [discriminate|]. destruct p; [|discriminate].
    assert (E : u' = fu_dev (x :: h)) by (destruct path; [congruence|destruct (bytes_eqb _ _); congruence]). subst u'.
    destruct (au_print au false (x :: h) [] A Na) as (B & C & _). apply build; auto. now apply word_lit.
  - unfold udpdev_canonize in H. destruct (udpdev_canonical u); [|discriminate]. injection H as <-. exact RT.
Qed.
End P.
(* ---- zones ---- *)
Lemma unesc_app : forall x r, ~ In uPercent x -> unescape (x ++ r) = x ++ unescape r.
Proof.
  induction x as [|c x IH]; intros r N; [reflexivity|]. cbn [app]. assert (B : beqb c cPercent = false) by (apply not_true_iff_false; rewrite beqb_eq; intros ->; apply N; now left).
  rewrite <- IH by (intro I; apply N; now right). cbn [unescape]. destruct (x ++ r) as [|h [|l t]]; auto. now rewrite B.
Qed.
Lemma find_app : forall x r, ~ In uPercent x -> find_sub (str "%25") (x ++ r) = match find_sub (str "%25") r with Some n => Some (length x + n)%nat | None => None end.
Proof.
  induction x as [|c x IH]; intros r N; [cbn [app length]; now destruct (find_sub (str "%25") r)|]. cbn [app find_sub].
  assert (after (str "%25") (c :: x ++ r) = None) as ->.
  { destruct (after (str "%25") (c :: x ++ r)) as [q|] eqn:E; auto. apply after_iff in E. injection E as -> _. exfalso. apply N. now left. }
  rewrite IH by (intro I; apply N; now right). destruct (find_sub (str "%25") r); reflexivity.
Qed.
Lemma find_none : forall r, ~ In uPercent r -> find_sub (str "%25") r = None.
Proof. intros r N. rewrite <- (app_nil_r r), find_app by exact N. reflexivity. Qed.
Lemma host_plain : forall x, ~ In uPercent x -> unescapeHost x = x.
Proof. intros x N. unfold unescapeHost. now rewrite find_none. Qed.
Lemma find_here : forall r, find_sub (str "%25") (str "%25" ++ r) = Some O.
Proof. reflexivity. Qed.
Lemma host_escaped : forall x c r, ~ In uPercent x -> ~ In uPercent (c :: r) -> unescapeHost (x ++ str "%25" ++ c :: r) = x ++ str "%" ++ c :: r.
Proof.
  intros x c r N M. unfold unescapeHost. rewrite find_app, find_here by exact N. rewrite !app_length. cbn [length].
  assert (Nat.ltb (length x + 0) (length x + (length (str "%25") + S (length r)) - 3) = true) as -> by (apply Nat.ltb_lt; change (length (str "%25")) with 3%nat; lia).
  rewrite unesc_app by exact N. assert (E : unescape (str "%25" ++ c :: r) = str "%" ++ unescape (c :: r)) by reflexivity. rewrite E.
  rewrite <- (app_nil_r (c :: r)) at 1. rewrite unesc_app by exact M. now rewrite app_nil_r.
Qed.
Lemma host_zone : forall x z, ~ In uPercent x -> ~ In uPercent z -> (~ exists c r, z = str "25" ++ c :: r) -> unescapeHost (x ++ str "%" ++ z) = x ++ str "%" ++ z.
Proof.
  intros x z N M Z. unfold unescapeHost. rewrite find_app by exact N. change (str "%" ++ z) with (uPercent :: z). cbn [find_sub]. rewrite (find_none z M).
  destruct (after (str "%25") (uPercent :: z)) as [q|] eqn:E; auto. apply after_iff in E. injection E as ->. destruct q as [|c q]; [|exfalso; apply Z; now exists c, q].
  rewrite app_length. destruct (Nat.ltb _ _) eqn:L; [|reflexivity]. exfalso. apply Nat.ltb_lt in L. cbn in L. lia.
Qed.
