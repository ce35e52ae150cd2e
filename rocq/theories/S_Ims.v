(* Independent specification of the in-memory storage: what is stored, what a lookup may return, and the order of
   insertions, accesses and removals. *)
From Verif Require Import Base S_Name M_Ims.

(* the packets held, and whether each is fresh *)
Definition stored (s : ims) : list pkt := map en_pk (im_cache s).
Definition holds (s : ims) (p : pkt) (fresh : bool) : Prop :=
  exists e, In e (im_cache s) /\ en_pk e = p /\ en_fresh e = fresh.

Definition is_prefix (a b : list key) : Prop := exists t, b = a ++ t.
(* Interest selection: by full name, by exact name, or, with CanBePrefix, by a prefix of the name *)
Definition q_accepts (q : qint) (p : pkt) : Prop :=
  q_name q = pk_full p \/ q_name q = pk_name p \/ (q_cbp q = true /\ is_prefix (q_name q) (pk_name p)).
Definition q_eligible (q : qint) (s : ims) (p : pkt) : Prop :=
  q_accepts q p /\ (if q_mbf q then holds s p true else In p (stored s)).

(* the answer to a lookup: the first eligible packet in canonical order of full names, if there is one *)
Definition leftmost (P : pkt -> Prop) (r : option pkt) : Prop :=
  match r with
  | Some p => P p /\ forall p', P p' -> p' = p \/ names_lt (pk_full p) (pk_full p')
  | None => forall p, ~ P p
  end.

(* histories: an observation sequence mentions packets by full name *)
Definition is_insert (f : list key) (o : iobs) : Prop := o = OIns f.
Definition is_use (f : list key) (o : iobs) : Prop := o = OIns f \/ o = OAcc f.
Definition is_removal (f : list key) (o : iobs) : Prop := o = ODel f \/ o = OEvict f.
Definition present (h : list iobs) (f : list key) : Prop :=
  exists h1 h2, h = h1 ++ OIns f :: h2 /\ forall o, In o h2 -> ~ is_removal f o.
(* f's last event of a kind came before g's *)
Definition earlier (kind : list key -> iobs -> Prop) (h : list iobs) (f g : list key) : Prop :=
  exists h1 h2, h = h1 ++ h2 /\ (forall o, In o h2 -> ~ kind f o) /\ exists o, In o h2 /\ kind g o.
(* accesses since the last insertion *)
Inductive accesses (f : list key) : list iobs -> N -> Prop :=
| acc_ins : forall h, accesses f (h ++ [OIns f]) 0
| acc_acc : forall h n, accesses f h n -> accesses f (h ++ [OAcc f]) (n + 1)
| acc_other : forall h n o, accesses f h n -> o <> OIns f -> o <> OAcc f -> accesses f (h ++ [o]) n.

(* the packet each policy may evict *)
Definition victim (pol : policy) (h : list iobs) (f : list key) : Prop :=
  present h f /\ forall g, present h g -> g <> f ->
  match pol with
  | FIFO => earlier is_insert h f g
  | LRU => earlier is_use h f g
  | LFU => exists n m, accesses f h n /\ accesses g h m /\ n <= m
  | PERSISTENT => False
  end.

(* a storage reached by a history of calls and stale timers; every policy but Persistent takes a limit *)
Definition reached (pol : policy) (sched : bool) (limit : N) (ops : list iop) (s : ims) (h : list iobs) : Prop :=
  im_run ops (im_init pol sched limit) = Ok (s, h).
(* limits of at least 16 packets, and fewer operations than could exhaust memory *)
Definition usable (pol : policy) (limit : N) (ops : list iop) : Prop :=
  16 <= limit /\ (pol = PERSISTENT -> limit = 2 ^ 64 - 1) /\ nlen ops < 2 ^ 60.
Definition count (s : ims) : N := nlen (stored s).
