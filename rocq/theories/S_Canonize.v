(* Vocabulary of the statements about canonical FaceUris. *)
From Verif Require Import Base M_Str M_FaceUri M_Canonize.
Open Scope list_scope.
Open Scope N_scope.

Definition ip_schemes : list bytes := [str "udp"; str "udp4"; str "udp6"; str "tcp"; str "tcp4"; str "tcp6"].
Definition all_schemes : list bytes := ip_schemes ++ [str "ether"; str "dev"; str "udp4+dev"; str "udp6+dev"].
Section S.
Variable mkaddr : bytes -> option ipaddr.
Variable resolve : bytes -> selector -> ipaddr + bytes.
(* the host of the URI is the address a, or resolves to it *)
Definition names (u : faceuri) (a : ipaddr) : Prop :=
  mkaddr (unescapeHost (fu_host u)) = Some a \/
  (mkaddr (unescapeHost (fu_host u)) = None /\ exists sel, resolve (unescapeHost (fu_host u)) sel = inl a).
(* the resolver gives addresses of the family asked for *)
Definition resolver_ok : Prop := (forall h a, resolve h SV4 = inl a -> ip_v4 a = true) /\ (forall h a, resolve h SV6 = inl a -> ip_v4 a = false).
(* the address is what its text reads as, and a link-local address has a zone, not starting with 25 and more *)
Definition regular (a : ipaddr) : Prop :=
  mkaddr (unescapeHost (ip_text a)) = Some a /\
  (ip_v4 a = false -> ip_ll a = true -> exists x z, ip_text a = x ++ uPercent :: z /\ ~ In uPercent x /\ ~ In uPercent z /\ ~ exists c r, z = str "25" ++ c :: r).
(* the family that a scheme asks for *)
Definition asks (base s : bytes) (sel : selector) : Prop :=
  (s = base /\ sel = SAny) \/ (s = base ++ str "4" /\ sel = SV4) \/ (s = base ++ str "6" /\ sel = SV6).
(* the host is, or resolves to, the address a of that family *)
Definition found (u : faceuri) (sel : selector) (a : ipaddr) : Prop :=
  (mkaddr (unescapeHost (fu_host u)) = Some a /\ (sel = SV4 -> ip_v4 a = true) /\ (sel = SV6 -> ip_v4 a = false)) \/
  (mkaddr (unescapeHost (fu_host u)) = None /\ resolve (unescapeHost (fu_host u)) sel = inl a).
End S.
(* the number that digits stand for *)
Definition number (p : bytes) : N := fold_left (fun v c => v * 10 + (bn c - 48)) p 0.
(* the scheme with the family of the address, e.g. udp4 *)
Definition with_family (base : bytes) (a : ipaddr) : bytes := base ++ (if ip_v4 a then str "4" else str "6").
