(* C97: texts of FaceUri. *)
From Verif Require Import Base BaseLemmas M_FaceUri S_FaceUri P_FaceUri.
Open Scope list_scope.

(* C97: exactly the texts of the grammar are read, each with the parts the grammar gives it. *)
Theorem C97_grammar : forall s u, fu_parse s = Some u <-> reads s u.
Proof. exact parse_iff. Qed.
Print Assumptions C97_grammar.
Example C97_grammar_case1 : fu_parse (str "udp6://[fe80::1%eth0]:6363/x") = Some (mkFu (str "udp6") (str "fe80::1%eth0") (str "6363") (str "/x") true).
Proof. reflexivity. Qed.
Example C97_grammar_case2 : fu_parse (str "tcp://[::ffff:192.0.2.1]:80") = Some (mkFu (str "tcp") (str "192.0.2.1") (str "80") [] false).
Proof. reflexivity. Qed.
Example C97_grammar_case3 : fu_parse (str "tcp6://::1:80") = None /\ fu_parse (str "udp4://h:") = None /\ fu_parse (str "a-b://h") = None /\ fu_parse (str "unix:///a?b") = None /\ fu_parse (str "udp4+dev://eth0:1") = Some (mkFu (str "udp4+dev") (str "eth0") (str "1") [] false).
Proof. repeat split. Qed.

(* C97: what was read prints to a text that reads back as the same URI. *)
Theorem C97_round_trip : forall s u, fu_parse s = Some u -> fu_parse (fu_print u) = Some u.
Proof. exact round_trip. Qed.
Print Assumptions C97_round_trip.
(* C97: that text is the one read, except that an IPv4-mapped address loses its brackets and its prefix. *)
Theorem C97_text : forall s u, fu_parse s = Some u -> fu_print u = s \/
  exists sch q rest, quad_host q /\ s = sch ++ str "://[::ffff:" ++ q ++ str "]" ++ rest /\ fu_print u = sch ++ str "://" ++ q ++ rest.
Proof. intros s u H. apply print_text. now apply parse_iff. Qed.
Print Assumptions C97_text.
Example C97_text_case : option_map fu_print (fu_parse (str "udp://[::ffff:10.0.0.1]:1/p")) = Some (str "udp://10.0.0.1:1/p") /\ option_map fu_print (fu_parse (str "ether://[08:00:27:01:dd:01]")) = Some (str "ether://[08:00:27:01:dd:01]").
Proof. split; reflexivity. Qed.

(* C97: two URIs that were read are equal exactly if they print the same. *)
Theorem C97_equal : forall s s' u u', fu_parse s = Some u -> fu_parse s' = Some u' -> (fu_eqb u u' = true <-> fu_print u = fu_print u').
Proof.
  intros s s' u u' H H'. rewrite fu_eqb_iff. split; [now intros ->|]. intro E. apply round_trip in H, H'. rewrite E in H. congruence.
Qed.
Print Assumptions C97_equal.
(* C97: equality compares every part. *)
Theorem C97_parts : forall u u', fu_eqb u u' = true <-> u = u'.
Proof. exact fu_eqb_iff. Qed.
Print Assumptions C97_parts.
Example C97_equal_case : exists u u', fu_parse (str "tcp://[::ffff:1.2.3.4]") = Some u /\ fu_parse (str "tcp://1.2.3.4") = Some u' /\ fu_eqb u u' = true.
Proof. exists (mkFu (str "tcp") (str "1.2.3.4") [] [] false), (mkFu (str "tcp") (str "1.2.3.4") [] [] false). repeat split. Qed.

(* C97: URIs made from addresses print texts that read back as the same URI. *)
Theorem C97_ether : forall a b c d e f, fu_parse (fu_print (fu_ether a b c d e f)) = Some (fu_ether a b c d e f).
Proof. exact ether_trip. Qed.
Print Assumptions C97_ether.
Theorem C97_ether_text : forall a b c d e f, exists ta tb tc td te tf,
  octet_text a ta /\ octet_text b tb /\ octet_text c tc /\ octet_text d td /\ octet_text e te /\ octet_text f tf /\
  fu_print (fu_ether a b c d e f) = str "ether://[" ++ ta ++ str ":" ++ tb ++ str ":" ++ tc ++ str ":" ++ td ++ str ":" ++ te ++ str ":" ++ tf ++ str "]".
Proof.
  intros. exists (hex2 a), (hex2 b), (hex2 c), (hex2 d), (hex2 e), (hex2 f). repeat (split; [apply hex2_text|]). reflexivity.
Qed.
Print Assumptions C97_ether_text.
Theorem C97_endpoint : forall s h p (v6 : bool), scheme s -> (if v6 then v6_host h else quad_host h) -> many digit p ->
  fu_parse (fu_print (fu_endpoint s h p v6)) = Some (fu_endpoint s h p v6).
Proof. intros s h p [|] S H P; [now apply v6_trip|now apply quad_trip]. Qed.
Print Assumptions C97_endpoint.
Theorem C97_unix : forall q, ~ In uQuestion q -> fu_parse (fu_print (fu_unix (uSlash :: q))) = Some (fu_unix (uSlash :: q)).
Proof. exact unix_trip. Qed.
Print Assumptions C97_unix.
Theorem C97_fd : forall n, many digit n -> fu_parse (fu_print (fu_fd n)) = Some (fu_fd n).
Proof. exact fd_trip. Qed.
Print Assumptions C97_fd.
Theorem C97_dev : forall n v6 p, many (fun c => c <> uColon /\ c <> uSlash) n -> (forall i, n <> uOpen :: i ++ [uClose]) -> many digit p ->
  fu_parse (fu_print (fu_dev n)) = Some (fu_dev n) /\ fu_parse (fu_print (fu_udpdev v6 n p)) = Some (fu_udpdev v6 n p).
Proof. intros n v6 p M O P. split; [now apply dev_trip|now apply udpdev_trip]. Qed.
Print Assumptions C97_dev.
Example C97_ether_case : fu_print (fu_ether x08 x00 x27 x01 xdd x01) = str "ether://[08:00:27:01:dd:01]".
Proof. reflexivity. Qed.
Example C97_made_case : fu_print (fu_endpoint (str "udp4") (str "192.0.2.1") (str "6363") false) = str "udp4://192.0.2.1:6363" /\ fu_print (fu_unix (str "/run/nfd.sock")) = str "unix:///run/nfd.sock" /\ fu_print (fu_fd (str "6")) = str "fd://6" /\ fu_print (fu_udpdev true (str "eth1") (str "6363")) = str "udp6+dev://eth1:6363".
Proof. repeat split. Qed.
(* The hypotheses about names are needed: an interface with a colon in its name reads back as another URI, and a socket path with a question mark does not read back. *)
Theorem C97_dev_refuted : exists n u, fu_parse (fu_print (fu_dev n)) = Some u /\ u <> fu_dev n.
Proof. exists (str "eth0:1"). eexists. split; [reflexivity|discriminate]. Qed.
Print Assumptions C97_dev_refuted.
Theorem C97_unix_refuted : exists q, fu_parse (fu_print (fu_unix (uSlash :: q))) = None.
Proof. exists (str "a?b"). reflexivity. Qed.
Print Assumptions C97_unix_refuted.
(* An IPv6 endpoint whose address is IPv4-mapped prints, as asio prints such addresses, with dots; it reads back as an IPv4 URI, unequal to it. *)
Theorem C97_mapped_endpoint_refuted : exists h p u, fu_parse (fu_print (fu_endpoint (str "udp6") h p true)) = Some u /\ fu_eqb u (fu_endpoint (str "udp6") h p true) = false.
Proof. exists (str "::ffff:192.0.2.1"), (str "6363"), (mkFu (str "udp6") (str "192.0.2.1") (str "6363") [] false). split; reflexivity. Qed.
Print Assumptions C97_mapped_endpoint_refuted.
