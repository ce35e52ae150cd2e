(* In-memory storage: ims/in-memory-storage.{hpp,cpp}, in-memory-storage-entry.{hpp,cpp} and the FIFO, LRU,
   LFU and persistent policies.  Names are lists of (type, value); that Name::compare orders the names with
   shortest component headers by names_ltb below is theorem C12. *)
From Verif Require Import Base M_Tlv M_Str M_Name S_Name.

(* name.cpp:316-347 and name-component.cpp:430-470 compare, and isPrefixOf name.cpp:286-299, on names as lists *)
Definition key_eqb (k l : key) : bool := (fst k =? fst l) && bytes_eqb (snd k) (snd l).
Definition key_ltb (k l : key) : bool :=
  (fst k <? fst l) ||
  ((fst k =? fst l) && ((nlen (snd k) <? nlen (snd l)) || ((nlen (snd k) =? nlen (snd l)) && (memcmp (snd k) (snd l) <? 0)%Z))).
Fixpoint names_ltb (a b : list key) : bool :=
  match a, b with
  | _, [] => false
  | [], _ :: _ => true
  | x :: a', y :: b' => key_ltb x y || (key_eqb x y && names_ltb a' b')
  end.
Fixpoint names_eqb (a b : list key) : bool :=
  match a, b with
  | [], [] => true
  | x :: a', y :: b' => key_eqb x y && names_eqb a' b'
  | _, _ => false
  end.
Fixpoint prefixb (a b : list key) : bool :=
  match a, b with
  | [], _ => true
  | x :: a', y :: b' => key_eqb x y && prefixb a' b'
  | _ :: _, [] => false
  end.

(* A stored Data: its name and implicit digest.  Data inserted must have been encoded or decoded, otherwise
   getFullName throws before anything is changed. *)
Record pkt := mkPkt { pk_name : list key; pk_digest : bytes }.
Definition pk_full (p : pkt) : list key := pk_name p ++ [(tImplicitSha256DigestComponent, pk_digest p)].
(* the parts of an Interest that find uses *)
Record qint := mkQ { q_name : list key; q_cbp : bool; q_mbf : bool }.
(* interest.cpp:318-341 matchesData (see C19) *)
Definition q_matches (q : qint) (p : pkt) : bool :=
  if nlen (q_name q) =? nlen (pk_name p) + 1 then
    match rev (q_name q) with
    | k :: _ => if fst k =? tImplicitSha256DigestComponent then names_eqb (q_name q) (pk_full p) else false
    | [] => false
    end
  else if q_cbp q then prefixb (q_name q) (pk_name p) else names_eqb (q_name q) (pk_name p).

(* in-memory-storage-entry.hpp:91-95; en_ptr: the entry as an object; en_timer: its mark-stale event is pending *)
Record ent := mkEnt { en_ptr : nat; en_pk : pkt; en_fresh : bool; en_timer : bool }.
Definition en_full (e : ent) : list key := pk_full (en_pk e).

Inductive policy := FIFO | LRU | LFU | PERSISTENT.
(* in-memory-storage.hpp:324-335: m_limit, m_capacity, m_nPackets, m_cache (ordered by full name), m_freeEntries
   (top first), whether there is a m_scheduler; im_new numbers the entries allocated.
   im_index: the m_cleanupIndex of the policy, in the order of its second index, with LFU's frequencies *)
Record ims := mkIms { im_policy : policy; im_limit : N; im_cap : N; im_n : N; im_cache : list ent; im_free : list nat;
  im_sched : bool; im_new : nat; im_index : list (nat * N) }.
Definition im_set s cap n cache free new index :=
  mkIms (im_policy s) (im_limit s) cap n cache free (im_sched s) new index.

Definition MIN_CAPACITY : N := 16.      (* in-memory-storage.cpp:27 *)
Definition SIZE_MAX : N := two64 - 1.

(* what happened to the stored packets *)
Inductive iobs := OIns (f : list key) | OAcc (f : list key) | ODel (f : list key) | OEvict (f : list key).

(* push k new entries *)
Definition im_push (k : N) (s : ims) : ims :=
  im_set s (im_cap s) (im_n s) (im_cache s) (rev (seq (im_new s) (N.to_nat k)) ++ im_free s) (im_new s + N.to_nat k) (im_index s).
(* in-memory-storage.cpp:43-68 constructors and init *)
Definition im_init (pol : policy) (sched : bool) (limit : N) : ims :=
  let cap := if negb (limit =? SIZE_MAX) && (limit <? MIN_CAPACITY) then limit else MIN_CAPACITY in
  im_push cap (mkIms pol limit cap 0 [] [] sched 0 []).

(* in-memory-storage.cpp:267-275 freeEntry, of the entry with this full name *)
Definition im_freeEntry (e : ent) (s : ims) : ims :=
  im_set s (im_cap s) (im_n s - 1) (filter (fun x => negb (names_eqb (en_full x) (en_full e))) (im_cache s))
    (en_ptr e :: im_free s) (im_new s) (im_index s).
Definition im_lookup (f : list key) (s : ims) : option ent := List.find (fun e => names_eqb (en_full e) f) (im_cache s).
(* in-memory-storage.cpp:302-310 eraseImpl *)
Definition im_eraseImpl (f : list key) (s : ims) : ims :=
  match im_lookup f s with Some e => im_freeEntry e s | None => s end.

(* ---- the policies: in-memory-storage-{fifo,lru,lfu}.cpp, -persistent.hpp ---- *)
Definition idx_remove (p : nat) (l : list (nat * N)) : list (nat * N) := filter (fun x => negb (Nat.eqb (fst x) p)) l.
(* insertion in an ordered_non_unique index: after the elements not greater *)
Fixpoint idx_insert (x : nat * N) (l : list (nat * N)) : list (nat * N) :=
  match l with
  | [] => [x]
  | y :: l' => if snd x <? snd y then x :: l else y :: idx_insert x l'
  end.
Definition setIndex l s := im_set s (im_cap s) (im_n s) (im_cache s) (im_free s) (im_new s) l.
(* afterInsert: fifo.cpp:36-41, lru.cpp:36-42, lfu.cpp:36-44 *)
Definition im_afterInsert (p : nat) (s : ims) : ims :=
  match im_policy s with
  | FIFO | LRU => setIndex (im_index s ++ [(p, 0)]) s
  | LFU => setIndex (idx_insert (p, 0) (im_index s)) s
  | PERSISTENT => s
  end.
(* beforeErase: fifo.cpp:56-62, lru.cpp:57-63, lfu.cpp:59-65 *)
Definition im_beforeErase (p : nat) (s : ims) : ims :=
  match im_policy s with PERSISTENT => s | _ => setIndex (idx_remove p (im_index s)) s end.
(* multi_index modify of lfu.cpp:67-72: the element stays in place if the order allows it *)
Fixpoint idx_bump (p : nat) (prev : list (nat * N)) (l : list (nat * N)) : option (list (nat * N)) :=
  match l with
  | [] => None
  | x :: l' =>
      if Nat.eqb (fst x) p then
        let f := (snd x + 1) mod two64 in
        let okPrev := match rev prev with y :: _ => negb (f <? snd y) | [] => true end in
        let okNext := match l' with y :: _ => negb (snd y <? f) | [] => true end in
        Some (if okPrev && okNext then prev ++ (p, f) :: l' else idx_insert (p, f) (prev ++ l'))
      else idx_bump p (prev ++ [x]) l'
  end.
(* afterAccess: in-memory-storage.cpp:342-345, lru.cpp:65-70, lfu.cpp:67-72 (modify of end() is undefined) *)
Definition im_afterAccess (p : nat) (s : ims) : res ims :=
  match im_policy s with
  | FIFO | PERSISTENT => Ok s
  | LRU => Ok (im_afterInsert p (im_beforeErase p s))
  | LFU => match idx_bump p [] (im_index s) with Some l => Ok (setIndex l s) | None => Err EUb end
  end.
(* evictItem: fifo.cpp:43-54, lru.cpp:44-55, lfu.cpp:46-57, persistent.hpp:46-50.  getFullName of an entry whose
   Data was released is undefined. *)
Definition im_evictItem (s : ims) : res (bool * ims * list iobs) :=
  match im_policy s, im_index s with
  | PERSISTENT, _ | _, [] => Ok (false, s, [])
  | _, (p, _) :: rest =>
      match List.find (fun e => Nat.eqb (en_ptr e) p) (im_cache s) with
      | None => Err EUb
      | Some e => Ok (true, setIndex rest (im_eraseImpl (en_full e) s), [OEvict (en_full e)])
      end
  end.

(* in-memory-storage.cpp:93-99: the eviction loop of setCapacity *)
Fixpoint im_evictLoop (fuel : nat) (allowed : Z) (s : ims) : res (ims * list iobs) :=
  if im_n s <=? im_cap s then Ok (s, []) else
  match fuel with
  | O => Err EFuel
  | S fuel' =>
      match im_evictItem s with
      | Err e => Err e
      | Ok (true, s', o) => let! r := im_evictLoop fuel' allowed s' in Ok (fst r, o ++ snd r)
      | Ok (false, s', o) =>
          if (allowed - 1 <? 0)%Z then Err ERuntime else
          let! r := im_evictLoop fuel' (allowed - 1)%Z s' in Ok (fst r, o ++ snd r)
      end
  end.
(* in-memory-storage.cpp:114 *)
Definition im_assertSize (r : ims * list iobs) : res (ims * list iobs) :=
  if im_n (fst r) + nlen (im_free (fst r)) =? im_cap (fst r) then Ok r else Err EAssert.
(* in-memory-storage.cpp:87-115 setCapacity; popping an empty stack is undefined *)
Definition im_setCapacity (capacity : N) (s : ims) : res (ims * list iobs) :=
  let old := im_cap s in
  let cap := N.max capacity MIN_CAPACITY in
  let s1 := im_set s cap (im_n s) (im_cache s) (im_free s) (im_new s) (im_index s) in
  let! r := im_evictLoop (2 * N.to_nat (im_n s)) (Z.of_N (im_n s) - Z.of_N cap) s1 in
  let s2 := fst r in
  if old <=? cap then im_assertSize (im_push (cap - old) s2, snd r)
  else
    let k := N.to_nat (old - cap) in
    if Nat.ltb (length (im_free s2)) k then Err EUb else
    im_assertSize (im_set s2 (im_cap s2) (im_n s2) (im_cache s2) (skipn k (im_free s2)) (im_new s2) (im_index s2), snd r).

Definition im_isFull (s : ims) : bool := im_cap s <=? im_n s.   (* in-memory-storage.hpp:286-290 *)
Fixpoint ent_insert (e : ent) (l : list ent) : list ent :=
  match l with
  | [] => [e]
  | x :: l' => if names_ltb (en_full e) (en_full x) then e :: l else x :: ent_insert e l'
  end.
(* in-memory-storage.cpp:117-152 insert; window: mustBeFreshProcessingWindow is not negative *)
Definition im_insert (p : pkt) (window : bool) (s : ims) : res (ims * list iobs) :=
  match im_lookup (pk_full p) s with
  | Some _ => Ok (s, [])
  | None =>
      let reach := im_limit s =? im_cap s in
      let! r1 := (if im_isFull s && negb reach then im_setCapacity (N.min ((2 * im_cap s) mod two64) (im_limit s)) s else Ok (s, [])) in
      let! r2 := (if im_isFull (fst r1) && reach then let! x := im_evictItem (fst r1) in Ok (snd (fst x), snd x) else Ok (fst r1, [])) in
      let s2 := fst r2 in
      match im_free s2 with
      | [] => Err EAssert     (* 138: BOOST_ASSERT; without assertions, top() of an empty stack *)
      | ptr :: free =>
          let e := mkEnt ptr p true (im_sched s2 && window) in
          let s3 := im_set s2 (im_cap s2) (im_n s2 + 1) (ent_insert e (im_cache s2)) free (im_new s2) (im_index s2) in
          Ok (im_afterInsert ptr s3, snd r1 ++ snd r2 ++ [OIns (pk_full p)])
      end
  end.

(* the elements before, and from, lower_bound *)
Fixpoint im_lower (n : list key) (l : list ent) : list ent * list ent :=
  match l with
  | [] => ([], [])
  | e :: l' => if names_ltb (en_full e) n then let '(a, b) := im_lower n l' in (e :: a, b) else ([], l)
  end.
Definition found (e : ent) (s : ims) : res (ims * list iobs * option pkt) :=
  let! s' := im_afterAccess (en_ptr e) s in Ok (s', [OAcc (en_full e)], Some (en_pk e)).
(* in-memory-storage.cpp:154-171 find(Name) *)
Definition im_findName (n : list key) (s : ims) : res (ims * list iobs * option pkt) :=
  match snd (im_lower n (im_cache s)) with
  | [] => Ok (s, [], None)
  | e :: _ => if prefixb n (en_full e) then found e s else Ok (s, [], None)
  end.
(* in-memory-storage.cpp:241-262, with findNextFresh 207-216: iterate to the right *)
Fixpoint im_right (q : qint) (l : list ent) : option ent :=
  match l with
  | [] => None
  | e :: l' =>
      if q_mbf q && negb (en_fresh e) then im_right q l'
      else if prefixb (q_name q) (en_full e) then if q_matches q (en_pk e) then Some e else im_right q l'
      else None
  end.
Fixpoint im_nextFresh (l : list ent) : list ent :=
  match l with [] => [] | e :: l' => if en_fresh e then l else im_nextFresh l' end.
(* in-memory-storage.cpp:218-265 selectChild *)
Definition im_selectChild (q : qint) (start : list ent) : option ent :=
  match (if q_mbf q then im_nextFresh start else start) with
  | [] => None
  | e :: l => if q_matches q (en_pk e) then Some e else im_right q l
  end.
(* in-memory-storage.cpp:173-205 find(Interest); a packet found by its exact full name is not reported to the policy *)
Definition im_findInterest (q : qint) (s : ims) : res (ims * list iobs * option pkt) :=
  match im_lookup (q_name q) s with
  | Some e => Ok (s, [], Some (en_pk e))
  | None =>
      match im_lower (q_name q) (im_cache s) with
      | (_, []) => Ok (s, [], None)
      | (before, from) =>
          let start := match rev before with x :: _ => x :: from | [] => from end in
          match im_selectChild q start with
          | None => Ok (s, [], None)
          | Some e => found e s
          end
      end
  end.
(* in-memory-storage.cpp:281-285: the loop of erase, from lower_bound *)
Fixpoint im_erasePrefix (n : list key) (l : list ent) (s : ims) : ims * list iobs :=
  match l with
  | [] => (s, [])
  | e :: l' =>
      if prefixb n (pk_name (en_pk e)) then
        let '(s', o) := im_erasePrefix n l' (im_freeEntry e (im_beforeErase (en_ptr e) s)) in (s', ODel (en_full e) :: o)
      else (s, [])
  end.
(* in-memory-storage.cpp:277-300 erase *)
Definition im_erase (n : list key) (isPrefix : bool) (s : ims) : res (ims * list iobs) :=
  let shrink (r : ims * list iobs) :=
    let '(s1, o) := r in
    if 2 * im_n s1 <? nlen (im_free s1) then let! r2 := im_setCapacity (im_cap s1 / 2) s1 in Ok (fst r2, o ++ snd r2) else Ok (s1, o) in
  if isPrefix then shrink (im_erasePrefix n (snd (im_lower n (im_cache s))) s)
  else match im_lookup n s with
       | None => Ok (s, [])
       | Some e => shrink (im_freeEntry e (im_beforeErase (en_ptr e) s), [ODel (en_full e)])
       end.
(* in-memory-storage-entry.cpp:32-36: the mark-stale event of an entry runs *)
Definition im_stale (p : nat) (s : ims) : ims :=
  im_set s (im_cap s) (im_n s)
    (map (fun e => if Nat.eqb (en_ptr e) p && en_timer e then mkEnt (en_ptr e) (en_pk e) false false else e) (im_cache s)) (im_free s) (im_new s) (im_index s).
(* in-memory-storage.cpp:312-317 begin, and *begin(): dereferences the first element without checking that there is one *)
Definition im_begin (s : ims) : res pkt := match im_cache s with e :: _ => Ok (en_pk e) | [] => Err EUb end.
(* packets in the order of the iterators, in-memory-storage.cpp:30-41, 312-324 *)
Definition im_iterate (s : ims) : res (list pkt) :=
  let! _ := im_begin s in Ok (map en_pk (im_cache s)).

Inductive iop := IInsert (p : pkt) (window : bool) | IFindName (n : list key) | IFindInterest (q : qint) | IErase (n : list key) (isPrefix : bool) | IStale (p : nat).
Definition im_step (o : iop) (s : ims) : res (ims * list iobs) :=
  match o with
  | IInsert p w => im_insert p w s
  | IFindName n => let! r := im_findName n s in Ok (fst r)
  | IFindInterest q => let! r := im_findInterest q s in Ok (fst r)
  | IErase n b => im_erase n b s
  | IStale p => Ok (im_stale p s, [])
  end.
Fixpoint im_run (l : list iop) (s : ims) : res (ims * list iobs) :=
  match l with
  | [] => Ok (s, [])
  | o :: l' => let! r := im_step o s in let! r' := im_run l' (fst r) in Ok (fst r', snd r ++ snd r')
  end.
