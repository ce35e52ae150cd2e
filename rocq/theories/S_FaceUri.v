(* Vocabulary of the statements about FaceUri. *)
From Verif Require Import Base M_FaceUri.
Open Scope list_scope.
Open Scope N_scope.

(* classes of characters, by their codes *)
Definition digit (c : byte) : Prop := 48 <= bn c <= 57.
Definition word (c : byte) : Prop := digit c \/ 65 <= bn c <= 90 \/ 97 <= bn c <= 122 \/ bn c = 95.
Definition hexcolon (c : byte) : Prop := digit c \/ 65 <= bn c <= 70 \/ 97 <= bn c <= 102 \/ bn c = 58.
Definition zone (c : byte) : Prop := ~ (9 <= bn c <= 13) /\ bn c <> 32 /\ c <> uSlash /\ c <> uColon.
Definition many (P : byte -> Prop) (s : bytes) : Prop := s <> [] /\ Forall P s.
(* a scheme, e.g. udp4+dev *)
Definition scheme (s : bytes) : Prop := many word s \/ exists a b, s = a ++ uPlus :: b /\ many word a /\ many word b.
(* an optional port: nothing, or a colon and digits *)
Definition port (t p : bytes) : Prop := (t = [] /\ p = []) \/ (t = uColon :: p /\ many digit p).
Definition v6_host (h : bytes) : Prop := many hexcolon h \/ exists x z, h = x ++ uPercent :: z /\ many hexcolon x /\ many zone z.
Definition quad_host (h : bytes) : Prop := exists a b c d, h = a ++ uDot :: b ++ uDot :: c ++ uDot :: d /\ many digit a /\ many digit b /\ many digit c /\ many digit d.
(* the authority: empty; an IPv6 or Ethernet address in brackets; an IPv4-mapped address in brackets; or anything without a colon that is not the second *)
Inductive authority : bytes -> bool -> bytes -> bytes -> Prop :=
| au_none : authority [] false [] []
| au_v6 : forall h t p, v6_host h -> port t p -> authority (uOpen :: h ++ uClose :: t) true h p
| au_mapped : forall h t p, quad_host h -> port t p -> authority (uOpen :: str "::ffff:" ++ h ++ uClose :: t) false h p
| au_plain : forall h t p, many (fun c => c <> uColon) h -> (forall i, h = uOpen :: i ++ [uClose] -> ~ v6_host i) -> port t p -> authority (h ++ t) false h p.
(* the whole text *)
Inductive reads : bytes -> faceuri -> Prop :=
| rd : forall s au path v6 h p, scheme s -> ~ In uSlash au -> (path = [] \/ exists q, path = uSlash :: q) -> ~ In uQuestion path ->
    authority au v6 h p -> reads (s ++ str "://" ++ au ++ path) (mkFu s h p path v6).
(* an octet as two lower-case hexadecimal digits *)
Definition lowhex (c : byte) (v : N) : Prop := (digit c /\ v = bn c - 48) \/ (97 <= bn c <= 102 /\ v = bn c - 87).
Definition octet_text (b : byte) (t : bytes) : Prop := exists h l vh vl, t = [h; l] /\ lowhex h vh /\ lowhex l vl /\ bn b = 16 * vh + vl.
