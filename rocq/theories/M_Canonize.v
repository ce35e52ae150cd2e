(* Model of the canonical forms of FaceUri: net/face-uri.cpp:207-633. *)
From Verif Require Import Base M_Str M_FaceUri.
Open Scope list_scope.
Open Scope N_scope.

(* ethernet.hpp:47 Address: six octets *)
Record eth := mkEth { e0 : byte; e1 : byte; e2 : byte; e3 : byte; e4 : byte; e5 : byte }.
Definition eth_text (a : eth) : bytes := ether_text (e0 a) (e1 a) (e2 a) (e3 a) (e4 a) (e5 a).
(* ethernet.cpp:71-75 isNull *)
Definition eth_null (a : eth) : bool := forallb (fun b => beqb b x00) [e0 a; e1 a; e2 a; e3 a; e4 a; e5 a].
Definition eth_uri (a : eth) : faceuri := fu_ether (e0 a) (e1 a) (e2 a) (e3 a) (e4 a) (e5 a).
(* boost::asio::ip::address: to_string(), is_v4() (is_v6() is its negation), is_multicast(), to_v6().is_link_local() *)
Record ipaddr := mkIp { ip_text : bytes; ip_v4 : bool; ip_multi : bool; ip_ll : bool }.
(* dns.hpp: AnyAddress, Ipv4Only, Ipv6Only *)
Inductive selector := SAny | SV4 | SV6.
(* which callback is called *)
Inductive outcome := CSuccess (u : faceuri) | CFailure (reason : bytes).

(* face-uri.cpp:559-597 the table of providers by scheme: 235-238, 445-448, 485-488, 525-528 *)
Inductive provider := PvUdp | PvTcp | PvEther | PvDev | PvUdpDev.
Definition pv_table : list (bytes * provider) :=
  [(str "udp", PvUdp); (str "udp4", PvUdp); (str "udp6", PvUdp); (str "tcp", PvTcp); (str "tcp4", PvTcp); (str "tcp6", PvTcp);
   (str "ether", PvEther); (str "dev", PvDev); (str "udp4+dev", PvUdpDev); (str "udp6+dev", PvUdpDev)].
Fixpoint pv_find (s : bytes) (t : list (bytes * provider)) : option provider :=
  match t with [] => None | (k, p) :: t' => if bytes_eqb s k then Some p else pv_find s t' end.
Definition provider_of (s : bytes) : option provider := pv_find s pv_table.
(* face-uri.cpp:599-603 canCanonize *)
Definition canCanonize (s : bytes) : bool := match provider_of s with Some _ => true | None => false end.

(* std::string::find *)
Fixpoint find_sub (p s : bytes) : option nat :=
  match after p s with
  | Some _ => Some O
  | None => match s with [] => None | _ :: s' => match find_sub p s' with Some n => Some (S n) | None => None end end
  end.
(* face-uri.cpp:395-403 unescapeHost *)
Definition unescapeHost (h : bytes) : bytes :=
  match find_sub (str "%25") h with
  | Some n => if Nat.ltb n (length h - 3) then unescape h else h
  | None => h
  end.
(* boost::algorithm::split at % into exactly two fields *)
Definition two_fields (s : bytes) : option (bytes * bytes) :=
  match split_at uPercent s with
  | Some (a, b) => match split_at uPercent b with None => Some (a, b) | Some _ => None end
  | None => None
  end.
(* face-uri.cpp:262-285 checkAddressWithUri *)
Definition text_ok (a : ipaddr) (host : bytes) : bool :=
  if ip_v4 a || negb (ip_ll a) then bytes_eqb (ip_text a) host
  else match two_fields (ip_text a), two_fields host with
       | Some (x, z), Some (x', z') =>
           if Nat.ltb 2 (length z') && (match after (str "25") z' with Some _ => true | None => false end) then false
           else bytes_eqb x x' && bytes_eqb z z'
       | _, _ => false
       end.
(* face-uri.cpp:389-393 and 431-438 checkAddress; the schemes 335-346, 413-428 *)
Definition ip_base (tcp : bool) : bytes := if tcp then str "tcp" else str "udp".
Definition ip_allowed (tcp : bool) (a : ipaddr) : bool := negb (tcp && ip_multi a).
Definition v4_scheme (tcp : bool) : bytes := ip_base tcp ++ str "4".
Definition v6_scheme (tcp : bool) : bytes := ip_base tcp ++ str "6".
(* boost::lexical_cast<uint16_t> of a text of digits *)
Definition port_value (p : bytes) : option N := let v := fst (read_digits p 0) in if v <? 65536 then Some v else None.
(* face-uri.cpp:116-130 FaceUri(endpoint) *)
Definition ip_uri (tcp : bool) (a : ipaddr) (p : N) : faceuri :=
  fu_endpoint (if ip_v4 a then v4_scheme tcp else v6_scheme tcp) (ip_text a) (to_string p) (negb (ip_v4 a)).
(* face-uri.cpp:348-375 onDnsSuccess.  The assertion that the result is canonical is not checked: a theorem says when it holds. *)
Definition on_dns (tcp : bool) (u : faceuri) (a : ipaddr) : outcome :=
  if negb (ip_allowed tcp a) then CFailure (str "cannot use multicast address")
  else match fu_port u with
       | [] => CSuccess (ip_uri tcp a (if ip_multi a then 56363 else 6363))
       | p => match port_value p with
              | Some v => CSuccess (ip_uri tcp a v)
              | None => CFailure (str "invalid port number '" ++ p ++ str "'")
              end
       end.

Section Canon.
Variable scan : bytes -> eth.                             (* ethernet.cpp:89-113 fromString: sscanf; all zeros if it does not match *)
Variable mkaddr : bytes -> option ipaddr.                 (* boost::asio::ip::make_address *)
Variable resolve : bytes -> selector -> ipaddr + bytes.   (* dns::asyncResolve: the address, or the reason of the failure; it calls one of its callbacks once *)

(* face-uri.cpp:240-288 isCanonical *)
Definition ip_canonical (tcp : bool) (u : faceuri) : bool :=
  match fu_port u, fu_path u with
  | _ :: _, [] =>
      match mkaddr (unescapeHost (fu_host u)) with
      | None => false
      | Some a =>
          ((bytes_eqb (fu_scheme u) (v4_scheme tcp) && ip_v4 a) || (bytes_eqb (fu_scheme u) (v6_scheme tcp) && negb (ip_v4 a))) &&
          text_ok a (fu_host u) && ip_allowed tcp a
      end
  | _, _ => false
  end.
(* face-uri.cpp:290-332 canonize *)
Definition ip_canonize (tcp : bool) (u : faceuri) : outcome :=
  if ip_canonical tcp u then CSuccess u
  else
    let h := unescapeHost (fu_host u) in
    let s4 := bytes_eqb (fu_scheme u) (v4_scheme tcp) in
    let s6 := bytes_eqb (fu_scheme u) (v6_scheme tcp) in
    match mkaddr h with
    | Some a => if (s4 && negb (ip_v4 a)) || (s6 && ip_v4 a) then CFailure (str "IPv4/v6 mismatch") else on_dns tcp u a
    | None => match resolve h (if s4 then SV4 else if s6 then SV6 else SAny) with inl a => on_dns tcp u a | inr r => CFailure r end
    end.
(* face-uri.cpp:450-478 *)
Definition eth_canonical (u : faceuri) : bool :=
  match fu_port u, fu_path u with [], [] => bytes_eqb (eth_text (scan (fu_host u))) (fu_host u) | _, _ => false end.
Definition eth_canonize (u : faceuri) : outcome :=
  let a := scan (fu_host u) in
  if eth_null a then CFailure (str "invalid ethernet address '" ++ fu_host u ++ str "'") else CSuccess (eth_uri a).
(* face-uri.cpp:490-519 *)
Definition dev_canonical (u : faceuri) : bool := match fu_host u, fu_port u, fu_path u with _ :: _, [], [] => true | _, _, _ => false end.
Definition dev_canonize (u : faceuri) : outcome :=
  match fu_host u with
  | [] => CFailure (str "network interface name is missing")
  | h => match fu_port u with
         | [] => match fu_path u with
                 | [] => CSuccess (fu_dev h)
                 | q => if bytes_eqb q (str "/") then CSuccess (fu_dev h) else CFailure (str "path is not allowed")
                 end
         | _ => CFailure (str "port number is not allowed")
         end
  end.
(* face-uri.cpp:530-554 *)
Definition udpdev_canonical (u : faceuri) : bool := match fu_port u, fu_path u with _ :: _, [] => true | _, _ => false end.
Definition udpdev_canonize (u : faceuri) : outcome := if udpdev_canonical u then CSuccess u else CFailure (str "cannot canonize " ++ fu_print u).
(* face-uri.cpp:605-614 isCanonical *)
Definition isCanonical (u : faceuri) : bool :=
  match provider_of (fu_scheme u) with
  | None => false
  | Some PvUdp => ip_canonical false u
  | Some PvTcp => ip_canonical true u
  | Some PvEther => eth_canonical u
  | Some PvDev => dev_canonical u
  | Some PvUdpDev => udpdev_canonical u
  end.
(* face-uri.cpp:616-633 canonize, with both callbacks given *)
Definition canonize (u : faceuri) : outcome :=
  match provider_of (fu_scheme u) with
  | None => CFailure (str "scheme not supported")
  | Some PvUdp => ip_canonize false u
  | Some PvTcp => ip_canonize true u
  | Some PvEther => eth_canonize u
  | Some PvDev => dev_canonize u
  | Some PvUdpDev => udpdev_canonize u
  end.
End Canon.
