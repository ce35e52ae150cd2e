(* Vocabulary of the statements about certificate bundles. *)
From Verif Require Import Base S_Tlv M_Tlv M_Str M_Name S_Name M_Packet S_Packet M_Bundle.
Open Scope N_scope.
Open Scope list_scope.

(* what is left of a bundle: octets that do not begin with a complete element, or an error *)
Inductive rest_of := Waiting (w : bytes) | Broken.
(* an element is a certificate: a Data named /.../KEY/a/b/c of ContentType 2 with a FreshnessPeriod *)
Definition is_cert (e : elem) (c : data) : Prop :=
  da_decode e da_empty = (c, None) /\ (exists p a b v, nkey (d_name c) = p ++ [(8, str "KEY"); a; b; v]) /\ mi_type (d_meta c) = 2 /\ mi_fresh (d_meta c) <> 0.
(* the certificates at the beginning of a sequence of octets, and what stops it *)
Inductive bundle : bytes -> list data -> rest_of -> Prop :=
| bun_wait : forall w, (forall w1 w2 e, w = w1 ++ w2 -> blockFromWire w1 = Ok e -> False) -> bundle w [] (Waiting w)
| bun_cert : forall w1 w2 e c cs r, blockFromWire w1 = Ok e -> e_type e = 6 -> is_cert e c -> bundle w2 cs r -> bundle (w1 ++ w2) (c :: cs) r
| bun_skip : forall w1 w2 e cs r, blockFromWire w1 = Ok e -> e_type e <> 6 -> ~ critical (e_type e) -> bundle w2 cs r -> bundle (w1 ++ w2) cs r
| bun_critical : forall w1 w2 e, blockFromWire w1 = Ok e -> e_type e <> 6 -> critical (e_type e) -> bundle (w1 ++ w2) [] Broken
| bun_nocert : forall w1 w2 e, blockFromWire w1 = Ok e -> e_type e = 6 -> (forall c, ~ is_cert e c) -> bundle (w1 ++ w2) [] Broken.
(* what the calls gave together *)
Definition given (l : list (list data * option err)) : list data := concat (map fst l).

(* the name of the bundle for a Data packet: its name without implicit digest and segment number, then _BUNDLE and the number 0 *)
Definition opt_seg (dconv : convention) (l : list comp) : Prop := l = [] \/ exists c, l = [c] /\ isKind dconv KSegment c = true.
Definition opt_digest (l : list comp) : Prop := l = [] \/ exists c, l = [c] /\ c_type c = 1 /\ nlen (c_val c) = 32.
Definition bundle_base (dconv : convention) (n base : list comp) : Prop :=
  exists s d, n = base ++ s ++ d /\ opt_seg dconv s /\ opt_digest d /\
    (s = [] -> forall b c, base = b ++ [c] -> isKind dconv KSegment c = false) /\
    (s = [] -> d = [] -> forall b c, base = b ++ [c] -> ~ (c_type c = 1 /\ nlen (c_val c) = 32)).
