(* Model of net/face-uri.cpp (parsing, printing, constructors) and the text of net/ethernet.cpp addresses. *)
From Verif Require Import Base M_Str.
Open Scope list_scope.
Open Scope N_scope.

Definition uColon : byte := x3a.
Definition uSlash : byte := x2f.
Definition uOpen : byte := x5b.
Definition uClose : byte := x5d.
Definition uPercent : byte := x25.
Definition uPlus : byte := x2b.
Definition uQuestion : byte := x3f.
Definition uDot : byte := x2e.
(* \d, \w, \s and [a-fA-F0-9:] of the regular expressions, in the C locale *)
Definition isDigitC (c : byte) : bool := between 48 57 c.
Definition isWordC (c : byte) : bool := isDigitC c || between 65 90 c || between 97 122 c || beqb c x5f.
Definition isSpaceC (c : byte) : bool := between 9 13 c || beqb c x20.
Definition isHexColon (c : byte) : bool := isDigitC c || between 65 70 c || between 97 102 c || beqb c uColon.
Definition some_of (f : byte -> bool) (s : bytes) : bool := match s with [] => false | _ => forallb f s end.

(* face-uri.hpp:215-219 *)
Record faceuri := mkFu { fu_scheme : bytes; fu_host : bytes; fu_port : bytes; fu_path : bytes; fu_v6 : bool }.

(* face-uri.cpp:68 (\w+\d?(\+\w+)?): word characters, perhaps + and word characters *)
Definition scheme_ok (s : bytes) : bool :=
  match split_at uPlus s with
  | Some (a, b) => some_of isWordC a && some_of isWordC b
  | None => some_of isWordC s
  end.
(* the optional (?:\:(\d+))? at the end of the expressions 78-86: what is before it, and the digits *)
Fixpoint last_colon (s : bytes) : option (bytes * bytes) :=
  match s with
  | [] => None
  | x :: s' => match last_colon s' with Some (a, b) => Some (x :: a, b) | None => if beqb x uColon then Some ([], s') else None end
  end.
Definition strip_port (a : bytes) : bytes * bytes :=
  match last_colon a with
  | Some (b, p) => if some_of isDigitC p then (b, p) else (a, [])
  | None => (a, [])
  end.
(* what is between [ and ] *)
Definition bracketed (b : bytes) : option bytes :=
  match b with
  | x :: r => if beqb x uOpen then match rev r with y :: i => if beqb y uClose then Some (rev i) else None | [] => None end else None
  | [] => None
  end.
(* face-uri.cpp:78 v6LinkLocalExp *)
Definition is_link_local (i : bytes) : bool :=
  match split_at uPercent i with
  | Some (x, z) => some_of isHexColon x && some_of (fun c => negb (isSpaceC c || beqb c uSlash || beqb c uColon)) z
  | None => false
  end.
(* face-uri.cpp:84 v4MappedV6Exp: ::ffff: and four numbers *)
Fixpoint quad (n : nat) (s : bytes) : bool :=
  match n with
  | O => some_of isDigitC s
  | S n' => match split_at uDot s with Some (a, b) => some_of isDigitC a && quad n' b | None => false end
  end.
Fixpoint after (p s : bytes) : option bytes :=
  match p, s with
  | [], _ => Some s
  | x :: p', y :: s' => if beqb x y then after p' s' else None
  | _, [] => None
  end.
(* face-uri.cpp:88-111: whether [] is added, host, port.  The expression for Ethernet addresses (82) never decides anything: v6Exp (80) is tried before it and matches them too. *)
Definition parse_authority (a : bytes) : option (bool * bytes * bytes) :=
  match a with
  | [] => Some (false, [], [])
  | _ =>
      let (b, p) := strip_port a in
      let plain := if some_of (fun c => negb (beqb c uColon)) b then Some (false, b, p) else None in
      match bracketed b with
      | Some i =>
          if is_link_local i then Some (true, i, p)
          else if some_of isHexColon i then Some (true, i, p)
          else match after (str "::ffff:") i with
               | Some q => if quad 3 q then Some (false, q, p) else plain
               | None => plain
               end
      | None => plain
      end
  end.
(* face-uri.cpp:63-114 parse, on success.  The stack of std::regex is taken to suffice. *)
Definition fu_parse (s : bytes) : option faceuri :=
  match split_at uColon s with
  | Some (sch, x :: y :: r) =>
      if scheme_ok sch && beqb x uSlash && beqb y uSlash then
        let (au, path) := match split_at uSlash r with Some (a, p) => (a, uSlash :: p) | None => (r, []) end in
        if forallb (fun c => negb (beqb c uQuestion)) path then
          match parse_authority au with Some (v6, h, p) => Some (mkFu sch h p path v6) | None => None end
        else None
      else None
  | _ => None
  end.
(* face-uri.cpp:191-205 print *)
Definition fu_print (u : faceuri) : bytes :=
  fu_scheme u ++ str "://" ++ (if fu_v6 u then uOpen :: fu_host u ++ [uClose] else fu_host u) ++
  (match fu_port u with [] => [] | p => uColon :: p end) ++ fu_path u.
(* face-uri.hpp:190-198 operator== *)
Definition fu_eqb (a b : faceuri) : bool :=
  Bool.eqb (fu_v6 a) (fu_v6 b) && bytes_eqb (fu_scheme a) (fu_scheme b) && bytes_eqb (fu_host a) (fu_host b) && bytes_eqb (fu_port a) (fu_port b) && bytes_eqb (fu_path a) (fu_path b).
(* ethernet.cpp:77-87 toString with a colon *)
Definition hex2 (b : byte) : bytes := [toHexChar (bn b / 16) false; toHexChar (bn b mod 16) false].
Definition ether_text (a b c d e f : byte) : bytes :=
  hex2 a ++ uColon :: hex2 b ++ uColon :: hex2 c ++ uColon :: hex2 d ++ uColon :: hex2 e ++ uColon :: hex2 f.
(* face-uri.cpp:148-153 FaceUri(ethernet::Address) *)
Definition fu_ether (a b c d e f : byte) : faceuri := mkFu (str "ether") (ether_text a b c d e f) [] [] true.
(* face-uri.cpp:116-138 FaceUri(endpoint): text of the address and of the port *)
Definition fu_endpoint (scheme addr port : bytes) (v6 : bool) : faceuri := mkFu scheme addr port [] v6.
(* face-uri.cpp:140-146 FaceUri(local endpoint) *)
Definition fu_unix (path : bytes) : faceuri := mkFu (str "unix") [] [] path false.
(* face-uri.cpp:155-162 fromFd, with the text of the number; 164-171 fromDev; 173-181 fromUdpDev *)
Definition fu_fd (n : bytes) : faceuri := mkFu (str "fd") n [] [] false.
Definition fu_dev (ifname : bytes) : faceuri := mkFu (str "dev") ifname [] [] false.
Definition fu_udpdev (v6 : bool) (ifname port : bytes) : faceuri := mkFu (if v6 then str "udp6+dev" else str "udp4+dev") ifname port [] false.
