(* Model of security/trust-anchor-group.{hpp,cpp} and security/trust-anchor-container.{hpp,cpp}.  A file system is a function from paths (numbers) to the
   certificates that io::load gets from the file, or from the files of the directory in the order of iteration (files that do not hold a certificate
   give none). *)
From Verif Require Import Base M_Name S_Name M_Ims M_CertCache.
From Coq Require Import ZArith.
Open Scope Z_scope.

Definition disk := N -> list cert.
(* trust-anchor-group.hpp:120-152: path, refresh period and expire time of a dynamic group (steady clock; m_expireTime starts at the epoch, 0) *)
Record tdyn := mkTD { td_path : N; td_period : Z; td_expire : Z }.
Record tgroup := mkTG { tg_id : N; tg_names : list (list key); tg_dyn : option tdyn }.
(* trust-anchor-container.hpp:140-189: the groups, and the anchors of all groups, ordered and unique by name *)
Record anchors := mkTA { ta_groups : list tgroup; ta_certs : list cert }.
Definition ta_empty : anchors := mkTA [] [].

(* ordered_unique insertion: nothing happens if the name is there *)
Fixpoint acert_add (c : cert) (l : list cert) : list cert :=
  match l with
  | [] => [c]
  | x :: l' => if names_eqb (ct_name c) (ct_name x) then l else if names_ltb (ct_name c) (ct_name x) then c :: l else x :: acert_add c l'
  end.
(* trust-anchor-container.cpp:32-36 *)
Definition acert_remove (n : list key) (l : list cert) : list cert := filter (fun x => negb (names_eqb (ct_name x) n)) l.
Definition has_name (n : list key) (l : list (list key)) : bool := existsb (names_eqb n) l.
Definition del_name (n : list key) (l : list (list key)) : list (list key) := filter (fun x => negb (names_eqb x n)) l.

(* trust-anchor-group.cpp:110-121 loadCert, over all files; old: oldAnchorNames *)
Fixpoint load_certs (cs : list cert) (names old : list (list key)) (l : list cert) : list (list key) * list (list key) * list cert :=
  match cs with
  | [] => (names, old, l)
  | c :: cs' => if has_name (ct_name c) names then load_certs cs' names (del_name (ct_name c) old) l
                else load_certs cs' (ct_name c :: names) old (acert_add c l)
  end.
(* 132-136 *)
Fixpoint drop_old (old names : list (list key)) (l : list cert) : list (list key) * list cert :=
  match old with [] => (names, l) | n :: old' => drop_old old' (del_name n names) (acert_remove n l) end.
(* trust-anchor-group.cpp:48-52 and 99-137 refresh; an overflow of the expire time is undefined *)
Definition tg_refresh (now : Z) (d : disk) (g : tgroup) (l : list cert) : res (tgroup * list cert) :=
  match tg_dyn g with
  | None => Ok (g, l)
  | Some y =>
      if now <? td_expire y then Ok (g, l)
      else
        let! e := tp_add now (td_period y) in
        let '(names, old, l1) := load_certs (d (td_path y)) (tg_names g) (tg_names g) l in
        let '(names2, l2) := drop_old old names l1 in
        Ok (mkTG (tg_id g) names2 (Some (mkTD (td_path y) (td_period y) e)), l2)
  end.
(* trust-anchor-container.cpp:121-127; the groups are in a hashed index: ord lists group ids in the order of iteration, which is unspecified (groups not
   listed come last, in the order of the list) *)
Definition tg_find (i : N) (gs : list tgroup) : option tgroup := List.find (fun g => (tg_id g =? i)%N) gs.
Definition tg_put (g : tgroup) (gs : list tgroup) : list tgroup := map (fun x => if (tg_id x =? tg_id g)%N then g else x) gs.
Fixpoint refresh_ids (now : Z) (d : disk) (ids : list N) (a : anchors) : res anchors :=
  match ids with
  | [] => Ok a
  | i :: ids' =>
      match tg_find i (ta_groups a) with
      | None => refresh_ids now d ids' a
      | Some g => let! p := tg_refresh now d g (ta_certs a) in refresh_ids now d ids' (mkTA (tg_put (fst p) (ta_groups a)) (snd p))
      end
  end.
Definition ta_refresh (now : Z) (d : disk) (ord : list N) (a : anchors) : res anchors := refresh_ids now d (ord ++ map tg_id (ta_groups a)) a.

(* trust-anchor-container.cpp:44-57 and trust-anchor-group.cpp:61-70 *)
Definition ta_insert (i : N) (c : cert) (a : anchors) : anchors * option err :=
  let gs := match tg_find i (ta_groups a) with Some _ => ta_groups a | None => mkTG i [] None :: ta_groups a end in
  match tg_find i gs with
  | None => (a, Some ELogic) (* not reached *)
  | Some g =>
      match tg_dyn g with
      | Some _ => (mkTA gs (ta_certs a), Some ERuntime)
      | None => if has_name (ct_name c) (tg_names g) then (mkTA gs (ta_certs a), None)
                else (mkTA (tg_put (mkTG i (ct_name c :: tg_names g) None) gs) (acert_add c (ta_certs a)), None)
      end
  end.
(* trust-anchor-container.cpp:59-69 and trust-anchor-group.cpp:81-97 *)
Definition ta_insertDyn (now : Z) (d : disk) (i : N) (path : N) (period : Z) (a : anchors) : res (anchors * option err) :=
  if existsb (fun g => (tg_id g =? i)%N) (ta_groups a) then Ok (a, Some ERuntime)
  else if period <=? 0 then Ok (a, Some ERuntime)
  else let! p := tg_refresh now d (mkTG i [] (Some (mkTD path period 0))) (ta_certs a) in Ok (mkTA (fst p :: ta_groups a) (snd p), None).
(* trust-anchor-container.cpp:71-76 *)
Definition ta_clear (a : anchors) : anchors := ta_empty.
(* getGroup(id).remove(name): trust-anchor-container.cpp:105-113 and trust-anchor-group.cpp:72-77; the group obtained has remove only if it is static *)
Definition ta_remove (i : N) (n : list key) (a : anchors) : anchors * option err :=
  match tg_find i (ta_groups a) with
  | None => (a, Some ERuntime)
  | Some g => match tg_dyn g with
              | Some _ => (a, Some EBadCast)
              | None => (mkTA (tg_put (mkTG i (del_name n (tg_names g)) None) (ta_groups a)) (acert_remove n (ta_certs a)), None)
              end
  end.
Fixpoint alower (n : list key) (l : list cert) : list cert := match l with [] => [] | x :: l' => if names_ltb (ct_name x) n then alower n l' else l end.
(* trust-anchor-container.cpp:78-88 *)
Definition ta_findName (now : Z) (d : disk) (ord : list N) (n : list key) (a : anchors) : res (anchors * option cert) :=
  let! a1 := ta_refresh now d ord a in
  Ok (a1, match alower n (ta_certs a1) with [] => None | c :: _ => if prefixb n (ct_name c) then Some c else None end).
(* 90-103 *)
Fixpoint ascan (q : qint) (l : list cert) : option cert :=
  match l with
  | [] => None
  | c :: l' => if prefixb (q_name q) (ct_name c) then if q_matches q (ct_pk c) then Some c else ascan q l' else None
  end.
Definition ta_findInterest (now : Z) (d : disk) (ord : list N) (q : qint) (a : anchors) : res (anchors * option cert) :=
  let! a1 := ta_refresh now d ord a in Ok (a1, ascan q (alower (q_name q) (ta_certs a1))).
(* 115-119, and trust-anchor-group.cpp:42-46 *)
Definition ta_size (a : anchors) : N := nlen (ta_certs a).
Definition tg_size (g : tgroup) : N := nlen (tg_names g).

Inductive taop :=
| TAIns (i : N) (c : cert) | TADyn (now : Z) (d : disk) (i path : N) (period : Z) | TARem (i : N) (n : list key) | TAClear
| TAFindN (now : Z) (d : disk) (ord : list N) (n : list key) | TAFindI (now : Z) (d : disk) (ord : list N) (q : qint).
Inductive taout := TOut (e : option err) | TFound (c : option cert).
Definition ta_step (o : taop) (a : anchors) : res (anchors * taout) :=
  match o with
  | TAIns i c => let p := ta_insert i c a in Ok (fst p, TOut (snd p))
  | TADyn now d i path period => let! p := ta_insertDyn now d i path period a in Ok (fst p, TOut (snd p))
  | TARem i n => let p := ta_remove i n a in Ok (fst p, TOut (snd p))
  | TAClear => Ok (ta_clear a, TOut None)
  | TAFindN now d ord n => let! p := ta_findName now d ord n a in Ok (fst p, TFound (snd p))
  | TAFindI now d ord q => let! p := ta_findInterest now d ord q a in Ok (fst p, TFound (snd p))
  end.
Fixpoint ta_run (l : list taop) (a : anchors) : res (anchors * list taout) :=
  match l with
  | [] => Ok (a, [])
  | o :: l' => let! p := ta_step o a in let! r := ta_run l' (fst p) in Ok (fst r, snd p :: snd r)
  end.
