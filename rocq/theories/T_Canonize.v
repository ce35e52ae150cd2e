(* C98: canonical FaceUris. *)
From Verif Require Import Base BaseLemmas M_Str M_FaceUri S_FaceUri P_FaceUri M_Canonize S_Canonize P_Canonize.
Open Scope list_scope.
Open Scope N_scope.

(* For the examples: an Ethernet scanner for xx:xx:xx:xx:xx:xx, a few addresses, and a resolver that knows one host. *)
Definition hexval (a b : byte) : byte := match fromHexChar a, fromHexChar b with Some x, Some y => nb (x * 16 + y) | _, _ => x00 end.
Definition ex_scan (h : bytes) : eth :=
  match h with
  | [a; a'; _; b; b'; _; c; c'; _; d; d'; _; e; e'; _; f; f'] => mkEth (hexval a a') (hexval b b') (hexval c c') (hexval d d') (hexval e e') (hexval f f')
  | _ => mkEth x00 x00 x00 x00 x00 x00
  end.
Definition ip1 : ipaddr := mkIp (str "192.0.2.1") true false false.
Definition ip2 : ipaddr := mkIp (str "224.0.23.170") true true false.
Definition ip3 : ipaddr := mkIp (str "fe80::1%eth0") false false true.
Definition ip4 : ipaddr := mkIp (str "fe80::1") false false true.
Definition ex_mk (h : bytes) : option ipaddr := find (fun a => bytes_eqb (ip_text a) h) [ip1; ip2; ip3; ip4].
Definition ex_dns (h : bytes) (sel : selector) : ipaddr + bytes :=
  if bytes_eqb h (str "example.net") then match sel with SV6 => inl ip3 | _ => inl ip1 end else inr (str "not found").
Lemma hexval_ok : forall b, hexval (toHexChar (bn b / 16) false) (toHexChar (bn b mod 16) false) = b.
Proof. destruct b; reflexivity. Qed.
Example C98_scan_ex : forall a, ex_scan (eth_text a) = a.
Proof. intros [a b c d e f]. unfold ex_scan, eth_text, ether_text, hex2. cbn [app e0 e1 e2 e3 e4 e5]. now rewrite !hexval_ok. Qed.
Example C98_dns_ex : resolver_ok ex_dns.
Proof.
  split; intros h a H; unfold ex_dns in H; destruct (bytes_eqb h (str "example.net")); try discriminate; injection H as <-; reflexivity.
Qed.
Example C98_regular_ex : regular ex_mk ip1 /\ regular ex_mk ip2 /\ regular ex_mk ip3.
Proof.
  repeat split; try (intros; discriminate). intros _ _. exists (str "fe80::1"), (str "eth0"). repeat split; [cbn; intuition discriminate|cbn; intuition discriminate|]. intros (c & r & E). discriminate.
Qed.

(* C98: the schemes that have canonical forms; others are never canonical and canonize fails. *)
Theorem C98_schemes : forall s, canCanonize s = true <-> In s all_schemes.
Proof. exact pv_in. Qed.
Print Assumptions C98_schemes.
Theorem C98_unsupported : forall scan mk dns u, ~ In (fu_scheme u) all_schemes -> isCanonical scan mk u = false /\ canonize scan mk dns u = CFailure (str "scheme not supported").
Proof.
  intros scan mk dns u N. rewrite <- pv_in in N. unfold canCanonize in N. unfold isCanonical, canonize. destruct (provider_of (fu_scheme u)); [now destruct N|auto].
Qed.
Print Assumptions C98_unsupported.
Example C98_unsupported_case : exists u, fu_parse (str "unix:///run/nfd.sock") = Some u /\ ~ In (fu_scheme u) all_schemes.
Proof. exists (mkFu (str "unix") [] [] (str "/run/nfd.sock") false). split; [reflexivity|]. cbn. intuition discriminate. Qed.

(* C98: what canonize gives is canonical, if the addresses involved are regular (so the assertions in the code hold). *)
Theorem C98_canonical_partial : forall scan mk dns s u u', fu_parse s = Some u -> (forall a, scan (eth_text a) = a) -> (forall a, names mk dns u a -> regular mk a) ->
  canonize scan mk dns u = CSuccess u' -> isCanonical scan mk u' = true.
Proof. intros scan mk dns s u u'. apply canonical_result. Qed.
Print Assumptions C98_canonical_partial.
(* C98: canonize leaves a canonical URI as it is. *)
Theorem C98_identity_partial : forall scan mk dns s u, fu_parse s = Some u -> isCanonical scan mk u = true -> (fu_scheme u = str "dev" -> fu_v6 u = false) ->
  (fu_scheme u = str "ether" -> eth_null (scan (fu_host u)) = false) -> canonize scan mk dns u = CSuccess u.
Proof. intros scan mk dns s u. apply identity. Qed.
Print Assumptions C98_identity_partial.
Example C98_canonical_case : exists u u', fu_parse (str "udp://example.net:06363/x") = Some u /\ canonize ex_scan ex_mk ex_dns u = CSuccess u' /\
  fu_print u' = str "udp4://192.0.2.1:6363" /\ isCanonical ex_scan ex_mk u = false /\ isCanonical ex_scan ex_mk u' = true /\ (forall a, names ex_mk ex_dns u a -> regular ex_mk a).
Proof.
  exists (mkFu (str "udp") (str "example.net") (str "06363") (str "/x") false), (ip_uri false ip1 6363). repeat (split; [reflexivity|]).
  intros a [N|(_ & (sel & N))]; [discriminate|]. destruct C98_regular_ex as (R1 & _ & R3). destruct sel; injection N as <-; auto.
Qed.
Example C98_identity_case : exists u v, fu_parse (str "udp6://[fe80::1%eth0]:6363") = Some u /\ isCanonical ex_scan ex_mk u = true /\
  fu_parse (str "ether://[08:00:27:01:dd:01]") = Some v /\ isCanonical ex_scan ex_mk v = true /\ eth_null (ex_scan (fu_host v)) = false.
Proof. exists (mkFu (str "udp6") (str "fe80::1%eth0") (str "6363") [] true), (fu_ether x08 x00 x27 x01 xdd x01). repeat split. Qed.

(* C98: for UDP and TCP the result is the address that the host is or resolves to, with its family in the scheme, no path, and the port given (as a number) or the default; never multicast for TCP. *)
Theorem C98_address : forall scan mk dns s u u' base, fu_parse s = Some u -> canonize scan mk dns u = CSuccess u' ->
  (base = str "udp" \/ base = str "tcp") -> (fu_scheme u = base \/ fu_scheme u = base ++ str "4" \/ fu_scheme u = base ++ str "6") ->
  exists a, names mk dns u a /\ fu_host u' = ip_text a /\ fu_scheme u' = with_family base a /\ (base = str "tcp" -> ip_multi a = false) /\ fu_path u' = [] /\
    match fu_port u with [] => fu_port u' = if ip_multi a then str "56363" else str "6363" | _ => number (fu_port u') = number (fu_port u) end.
Proof. intros scan mk dns s u u' base. apply ip_success. Qed.
Print Assumptions C98_address.
(* C98: a scheme that names a family, or no IP protocol, is kept. *)
Theorem C98_scheme_kept : forall scan mk dns u u', resolver_ok dns -> canonize scan mk dns u = CSuccess u' -> fu_scheme u <> str "udp" -> fu_scheme u <> str "tcp" -> fu_scheme u' = fu_scheme u.
Proof. intros scan mk dns u u'. apply same_scheme. Qed.
Print Assumptions C98_scheme_kept.
Example C98_address_case : canonize ex_scan ex_mk ex_dns (mkFu (str "udp4") (str "224.0.23.170") [] [] false) = CSuccess (mkFu (str "udp4") (str "224.0.23.170") (str "56363") [] false) /\
  canonize ex_scan ex_mk ex_dns (mkFu (str "tcp4") (str "224.0.23.170") [] [] false) = CFailure (str "cannot use multicast address") /\
  canonize ex_scan ex_mk ex_dns (mkFu (str "tcp6") (str "example.net") [] [] false) = CSuccess (mkFu (str "tcp6") (str "fe80::1%eth0") (str "6363") [] true) /\
  canonize ex_scan ex_mk ex_dns (mkFu (str "tcp6") (str "192.0.2.1") [] [] false) = CFailure (str "IPv4/v6 mismatch").
Proof. repeat split. Qed.

(* C98: canonize succeeds for every host that is or resolves to an address of the family asked for, with no port or a port number. *)
Theorem C98_succeeds : forall scan mk dns s u base sel a, fu_parse s = Some u -> (base = str "udp" \/ base = str "tcp") -> asks base (fu_scheme u) sel -> found mk dns u sel a ->
  (base = str "tcp" -> ip_multi a = false) -> number (fu_port u) < 65536 -> exists u', canonize scan mk dns u = CSuccess u'.
Proof. intros scan mk dns s u base sel a. apply succeeds. Qed.
Print Assumptions C98_succeeds.
Example C98_succeeds_case : exists u, fu_parse (str "udp4://224.0.23.170:65535") = Some u /\ asks (str "udp") (fu_scheme u) SV4 /\ found ex_mk ex_dns u SV4 ip2 /\ number (fu_port u) < 65536.
Proof. exists (mkFu (str "udp4") (str "224.0.23.170") (str "65535") [] false). repeat split; [right; left; split; reflexivity|left; repeat split; discriminate]. Qed.
(* C98: the result prints to a text that reads back as it, if addresses print as addresses do. *)
Theorem C98_readable_partial : forall scan mk dns s u u', fu_parse s = Some u -> canonize scan mk dns u = CSuccess u' -> (fu_scheme u = str "dev" -> fu_v6 u = false) ->
  (forall a, names mk dns u a -> if ip_v4 a then quad_host (ip_text a) else v6_host (ip_text a)) -> fu_parse (fu_print u') = Some u'.
Proof. intros scan mk dns s u u'. apply readable. Qed.
Print Assumptions C98_readable_partial.
Example C98_readable_case : quad_host (ip_text ip1) /\ v6_host (ip_text ip3).
Proof. split; [now apply quad_iff|now apply v6_iff]. Qed.
(* C98: how a host with a zone is looked up: %25 before a zone stands for %; everything else is taken as it is. *)
Theorem C98_zone : forall x, ~ In uPercent x ->
  unescapeHost x = x /\
  (forall c r, ~ In uPercent (c :: r) -> unescapeHost (x ++ str "%25" ++ c :: r) = x ++ str "%" ++ c :: r) /\
  (forall z, ~ In uPercent z -> (~ exists c r, z = str "25" ++ c :: r) -> unescapeHost (x ++ str "%" ++ z) = x ++ str "%" ++ z).
Proof. intros x N. split; [now apply host_plain|]. split; intros; [now apply host_escaped|now apply host_zone]. Qed.
Print Assumptions C98_zone.
Example C98_zone_case : unescapeHost (str "fe80::1%25eth0") = str "fe80::1%eth0" /\ unescapeHost (str "fe80::1%eth0") = str "fe80::1%eth0" /\ unescapeHost (str "fe80::1%25") = str "fe80::1%25".
Proof. repeat split. Qed.

(* C98: URIs of interfaces. *)
Theorem C98_dev : forall scan mk dns u u', fu_scheme u = str "dev" -> (canonize scan mk dns u = CSuccess u' <->
  fu_host u <> [] /\ fu_port u = [] /\ (fu_path u = [] \/ fu_path u = str "/") /\ u' = fu_dev (fu_host u)).
Proof.
  intros scan mk dns u u' S. unfold canonize. rewrite S. change (provider_of (str "dev")) with (Some PvDev). cbv iota. unfold dev_canonize.
  destruct (fu_host u) as [|x h]; [split; [discriminate|intros (N & _); now destruct N]|]. destruct (fu_port u); [|split; [discriminate|intros (_ & N & _); discriminate]].
  destruct (fu_path u) as [|y q] eqn:Q.
  - split; [intro H; injection H as <-; repeat split; auto; discriminate|intros (_ & _ & _ & ->); reflexivity].
  - destruct (bytes_eqb (y :: q) (str "/")) eqn:B.
    + apply bytes_eqb_eq in B. split; [intro H; injection H as <-; repeat split; auto; discriminate|intros (_ & _ & _ & ->); reflexivity].
    + split; [discriminate|]. intros (_ & _ & [N|N] & _); [discriminate|]. rewrite N in B. discriminate.
Qed.
Print Assumptions C98_dev.
Theorem C98_udpdev : forall scan mk dns u u', fu_scheme u = str "udp4+dev" \/ fu_scheme u = str "udp6+dev" ->
  (canonize scan mk dns u = CSuccess u' <-> fu_port u <> [] /\ fu_path u = [] /\ u' = u).
Proof.
  intros scan mk dns u u' S. assert (canonize scan mk dns u = udpdev_canonize u) as -> by (unfold canonize; destruct S as [-> | ->]; reflexivity). unfold udpdev_canonize, udpdev_canonical.
  destruct (fu_port u); [split; [discriminate|intros (N & _); now destruct N]|]. destruct (fu_path u); [|split; [discriminate|intros (_ & N & _); discriminate]].
  split; [intro H; injection H as <-; repeat split; discriminate|intros (_ & _ & ->); reflexivity].
Qed.
Print Assumptions C98_udpdev.
(* C98: Ethernet URIs: the address that the host reads as; all zeros is refused.  Port and path are ignored. *)
Theorem C98_ether : forall scan mk dns u u', fu_scheme u = str "ether" ->
  (canonize scan mk dns u = CSuccess u' <-> u' = eth_uri (scan (fu_host u)) /\ scan (fu_host u) <> mkEth x00 x00 x00 x00 x00 x00).
Proof.
  intros scan mk dns u u' S. assert (canonize scan mk dns u = eth_canonize scan u) as -> by (unfold canonize; rewrite S; reflexivity). unfold eth_canonize.
  destruct (scan (fu_host u)) as [a b c d e f]. unfold eth_null. cbn [e0 e1 e2 e3 e4 e5 forallb]. destruct (_ && _) eqn:Z.
  - rewrite !andb_true_iff, !beqb_eq in Z. destruct Z as (-> & -> & -> & -> & -> & -> & _). split; [discriminate|intros (_ & N); now destruct N].
  - split; [|intros (-> & _); reflexivity]. intro H. injection H as <-. split; [reflexivity|]. intro E. injection E as -> -> -> -> -> ->. discriminate.
Qed.
Print Assumptions C98_ether.
Example C98_dev_case : canonize ex_scan ex_mk ex_dns (mkFu (str "dev") (str "eth0") [] (str "/") false) = CSuccess (fu_dev (str "eth0")) /\
  canonize ex_scan ex_mk ex_dns (mkFu (str "udp4+dev") (str "eth0") [] [] false) = CFailure (str "cannot canonize udp4+dev://eth0") /\
  canonize ex_scan ex_mk ex_dns (mkFu (str "ether") (str "08:00:27:01:dd:01") (str "1") (str "/a") true) = CSuccess (fu_ether x08 x00 x27 x01 xdd x01).
Proof. repeat split. Qed.

(* Canonical URIs that canonize does not leave as they are: it refuses the null Ethernet address, and takes the brackets off an interface. *)
Theorem C98_null_refuted : exists u, fu_parse (str "ether://[00:00:00:00:00:00]") = Some u /\ isCanonical ex_scan ex_mk u = true /\ forall u', canonize ex_scan ex_mk ex_dns u <> CSuccess u'.
Proof. exists (fu_ether x00 x00 x00 x00 x00 x00). repeat split. intros u' H. discriminate. Qed.
Print Assumptions C98_null_refuted.
Theorem C98_brackets_refuted : forall scan mk dns, exists u u', fu_parse (str "dev://[::1]") = Some u /\ isCanonical scan mk u = true /\ canonize scan mk dns u = CSuccess u' /\ u' <> u /\ fu_parse (fu_print u') <> Some u'.
Proof. intros. exists (mkFu (str "dev") (str "::1") [] [] true), (fu_dev (str "::1")). repeat split; discriminate. Qed.
Print Assumptions C98_brackets_refuted.
(* A link-local address without zone: the result is not canonical, so the assertion in the code fails. *)
Theorem C98_link_local_refuted : exists u u', fu_parse (str "udp6://[fe80::1]:6363") = Some u /\ canonize ex_scan ex_mk ex_dns u = CSuccess u' /\ isCanonical ex_scan ex_mk u' = false.
Proof. exists (mkFu (str "udp6") (str "fe80::1") (str "6363") [] true), (ip_uri false ip4 6363). repeat split. Qed.
Print Assumptions C98_link_local_refuted.
(* The port of a canonical URI need not be a port number. *)
Theorem C98_port_refuted : exists u, fu_parse (str "udp4://192.0.2.1:99999") = Some u /\ isCanonical ex_scan ex_mk u = true /\ canonize ex_scan ex_mk ex_dns u = CSuccess u /\ number (fu_port u) = 99999.
Proof. exists (mkFu (str "udp4") (str "192.0.2.1") (str "99999") [] false). repeat split. Qed.
Print Assumptions C98_port_refuted.
