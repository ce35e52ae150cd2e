(* Model of ndn-cxx/util/segment-fetcher.{hpp,cpp}.
   The Face, the Scheduler and the Validator are the environment: it decides which request is answered by what Data or Nack,
   which timer fires, and how and when each validation ends.  A timer can fire only while the fetcher holds it.  The RTT
   estimator (M_Rtt) only determines when timers fire, so it does not appear here.  Counters of type int64_t that only count
   Interests or Data (m_nSegmentsInFlight, m_nReceived) are unbounded integers; m_nBytesReceived is not modelled, nothing reads it.
   BOOST_ASSERT and BOOST_VERIFY failures are EAssert; use of an iterator whose element was erased is EUb. *)
From Coq Require Import ZArith SpecFloat.
From Verif Require Import Base M_Tlv M_Name M_Packet M_Rtt.
Open Scope N_scope.

(* segment-fetcher.hpp:38-71 Options; interestLifetime, useConstantInterestTimeout and rttOptions have no influence here *)
Record fopts := mkFopts {
  fo_maxTimeout : Z; fo_probe : bool; fo_inOrder : bool; fo_constCwnd : bool; fo_disableCwa : bool; fo_resetCwnd : bool;
  fo_ignoreCong : bool; fo_initCwnd : spec_float; fo_initSsthresh : spec_float; fo_aiStep : spec_float; fo_mdCoef : spec_float;
  fo_flowWin : N }.

(* segment-fetcher.hpp:296-310 SegmentState and PendingSegment.  ps_uid identifies the element of the map (the iterator);
   ps_req is the request that hdl refers to; ps_timer the timer that timeoutEvent refers to, None once cancelled or expired.
   sendTime is only used for the RTT estimator. *)
Inductive sstate := FirstInterest | InRetxQueue | Retransmitted.
Record pseg := mkPs { ps_uid : nat; ps_state : sstate; ps_req : nat; ps_timer : option nat }.

(* What can be observed: Interests sent, the signals, and the moment at which stop() takes effect *)
Inductive fobs :=
  | OInterest (id : nat) (n : name) (cbp mbf : bool)
  | OReceived (d : data) | OValidated (d : data) | ONacked | OTimedOut
  | OInOrder (b : bytes) | OInOrderComplete | OComplete (b : bytes) | OError (code : N)
  | OStop.

(* segment-fetcher.hpp:313-345.  Also: fs_reqs, the names of the Interests sent so far by number; fs_vals, the validations that
   are under way, by number, each with the Data, the iterator and whether the Data has a congestion mark; fs_log. *)
Record fetcher := mkFs {
  fs_this : bool; fs_tlast : Z; fs_retx : list N; fs_ver : name; fs_next : N; fs_cwnd : spec_float; fs_ssth : spec_float;
  fs_infl : Z; fs_nseg : Z; fs_highInt : N; fs_highData : N; fs_rec : N; fs_nrecv : Z; fs_nextOrd : N;
  fs_buf : list (N * bytes); fs_pend : list (N * pseg); fs_recv : list N;
  fs_reqs : list name; fs_vals : list (option (data * nat * bool)); fs_log : list fobs }.

Definition wThis v s := mkFs v (fs_tlast s) (fs_retx s) (fs_ver s) (fs_next s) (fs_cwnd s) (fs_ssth s) (fs_infl s) (fs_nseg s) (fs_highInt s) (fs_highData s) (fs_rec s) (fs_nrecv s) (fs_nextOrd s) (fs_buf s) (fs_pend s) (fs_recv s) (fs_reqs s) (fs_vals s) (fs_log s).
Definition wTlast v s := mkFs (fs_this s) v (fs_retx s) (fs_ver s) (fs_next s) (fs_cwnd s) (fs_ssth s) (fs_infl s) (fs_nseg s) (fs_highInt s) (fs_highData s) (fs_rec s) (fs_nrecv s) (fs_nextOrd s) (fs_buf s) (fs_pend s) (fs_recv s) (fs_reqs s) (fs_vals s) (fs_log s).
Definition wRetx v s := mkFs (fs_this s) (fs_tlast s) v (fs_ver s) (fs_next s) (fs_cwnd s) (fs_ssth s) (fs_infl s) (fs_nseg s) (fs_highInt s) (fs_highData s) (fs_rec s) (fs_nrecv s) (fs_nextOrd s) (fs_buf s) (fs_pend s) (fs_recv s) (fs_reqs s) (fs_vals s) (fs_log s).
Definition wVer v s := mkFs (fs_this s) (fs_tlast s) (fs_retx s) v (fs_next s) (fs_cwnd s) (fs_ssth s) (fs_infl s) (fs_nseg s) (fs_highInt s) (fs_highData s) (fs_rec s) (fs_nrecv s) (fs_nextOrd s) (fs_buf s) (fs_pend s) (fs_recv s) (fs_reqs s) (fs_vals s) (fs_log s).
Definition wNext v s := mkFs (fs_this s) (fs_tlast s) (fs_retx s) (fs_ver s) v (fs_cwnd s) (fs_ssth s) (fs_infl s) (fs_nseg s) (fs_highInt s) (fs_highData s) (fs_rec s) (fs_nrecv s) (fs_nextOrd s) (fs_buf s) (fs_pend s) (fs_recv s) (fs_reqs s) (fs_vals s) (fs_log s).
Definition wCwnd v w s := mkFs (fs_this s) (fs_tlast s) (fs_retx s) (fs_ver s) (fs_next s) v w (fs_infl s) (fs_nseg s) (fs_highInt s) (fs_highData s) (fs_rec s) (fs_nrecv s) (fs_nextOrd s) (fs_buf s) (fs_pend s) (fs_recv s) (fs_reqs s) (fs_vals s) (fs_log s).
Definition wInfl v s := mkFs (fs_this s) (fs_tlast s) (fs_retx s) (fs_ver s) (fs_next s) (fs_cwnd s) (fs_ssth s) v (fs_nseg s) (fs_highInt s) (fs_highData s) (fs_rec s) (fs_nrecv s) (fs_nextOrd s) (fs_buf s) (fs_pend s) (fs_recv s) (fs_reqs s) (fs_vals s) (fs_log s).
Definition wNseg v s := mkFs (fs_this s) (fs_tlast s) (fs_retx s) (fs_ver s) (fs_next s) (fs_cwnd s) (fs_ssth s) (fs_infl s) v (fs_highInt s) (fs_highData s) (fs_rec s) (fs_nrecv s) (fs_nextOrd s) (fs_buf s) (fs_pend s) (fs_recv s) (fs_reqs s) (fs_vals s) (fs_log s).
Definition wHighInt v s := mkFs (fs_this s) (fs_tlast s) (fs_retx s) (fs_ver s) (fs_next s) (fs_cwnd s) (fs_ssth s) (fs_infl s) (fs_nseg s) v (fs_highData s) (fs_rec s) (fs_nrecv s) (fs_nextOrd s) (fs_buf s) (fs_pend s) (fs_recv s) (fs_reqs s) (fs_vals s) (fs_log s).
Definition wHighData v s := mkFs (fs_this s) (fs_tlast s) (fs_retx s) (fs_ver s) (fs_next s) (fs_cwnd s) (fs_ssth s) (fs_infl s) (fs_nseg s) (fs_highInt s) v (fs_rec s) (fs_nrecv s) (fs_nextOrd s) (fs_buf s) (fs_pend s) (fs_recv s) (fs_reqs s) (fs_vals s) (fs_log s).
Definition wRec v s := mkFs (fs_this s) (fs_tlast s) (fs_retx s) (fs_ver s) (fs_next s) (fs_cwnd s) (fs_ssth s) (fs_infl s) (fs_nseg s) (fs_highInt s) (fs_highData s) v (fs_nrecv s) (fs_nextOrd s) (fs_buf s) (fs_pend s) (fs_recv s) (fs_reqs s) (fs_vals s) (fs_log s).
Definition wNrecv v r s := mkFs (fs_this s) (fs_tlast s) (fs_retx s) (fs_ver s) (fs_next s) (fs_cwnd s) (fs_ssth s) (fs_infl s) (fs_nseg s) (fs_highInt s) (fs_highData s) (fs_rec s) v (fs_nextOrd s) (fs_buf s) (fs_pend s) r (fs_reqs s) (fs_vals s) (fs_log s).
Definition wBuf b n s := mkFs (fs_this s) (fs_tlast s) (fs_retx s) (fs_ver s) (fs_next s) (fs_cwnd s) (fs_ssth s) (fs_infl s) (fs_nseg s) (fs_highInt s) (fs_highData s) (fs_rec s) (fs_nrecv s) n b (fs_pend s) (fs_recv s) (fs_reqs s) (fs_vals s) (fs_log s).
Definition wPend v s := mkFs (fs_this s) (fs_tlast s) (fs_retx s) (fs_ver s) (fs_next s) (fs_cwnd s) (fs_ssth s) (fs_infl s) (fs_nseg s) (fs_highInt s) (fs_highData s) (fs_rec s) (fs_nrecv s) (fs_nextOrd s) (fs_buf s) v (fs_recv s) (fs_reqs s) (fs_vals s) (fs_log s).
Definition wReqs v s := mkFs (fs_this s) (fs_tlast s) (fs_retx s) (fs_ver s) (fs_next s) (fs_cwnd s) (fs_ssth s) (fs_infl s) (fs_nseg s) (fs_highInt s) (fs_highData s) (fs_rec s) (fs_nrecv s) (fs_nextOrd s) (fs_buf s) (fs_pend s) (fs_recv s) v (fs_vals s) (fs_log s).
Definition wVals v s := mkFs (fs_this s) (fs_tlast s) (fs_retx s) (fs_ver s) (fs_next s) (fs_cwnd s) (fs_ssth s) (fs_infl s) (fs_nseg s) (fs_highInt s) (fs_highData s) (fs_rec s) (fs_nrecv s) (fs_nextOrd s) (fs_buf s) (fs_pend s) (fs_recv s) (fs_reqs s) v (fs_log s).
Definition wLog v s := mkFs (fs_this s) (fs_tlast s) (fs_retx s) (fs_ver s) (fs_next s) (fs_cwnd s) (fs_ssth s) (fs_infl s) (fs_nseg s) (fs_highInt s) (fs_highData s) (fs_rec s) (fs_nrecv s) (fs_nextOrd s) (fs_buf s) (fs_pend s) (fs_recv s) (fs_reqs s) (fs_vals s) v.

(* std::map and std::set: elements in ascending order of the key *)
Fixpoint mget {A} (k : N) (m : list (N * A)) : option A :=
  match m with [] => None | (k', v) :: m' => if k =? k' then Some v else mget k m' end.
Fixpoint minsert {A} (k : N) (v : A) (m : list (N * A)) : list (N * A) :=
  match m with [] => [(k, v)] | (k', v') :: m' => if k =? k' then (k, v) :: m' else if k <? k' then (k, v) :: m else (k', v') :: minsert k v m' end.
Definition mremove {A} (k : N) (m : list (N * A)) : list (N * A) := filter (fun p => negb (fst p =? k)) m.
Definition sinsert (k : N) (l : list N) : list N := if existsb (N.eqb k) l then l else k :: l.
(* static_cast between int64_t and uint64_t *)
Definition toU64 (z : Z) : N := Z.to_N (z mod 2 ^ 64)%Z.
Definition toI64 (n : N) : Z := if n <? 2 ^ 63 then Z.of_N n else (Z.of_N n - 2 ^ 64)%Z.
(* std::floor of a double *)
Definition ffloor (f : spec_float) : spec_float :=
  match f with
  | S754_finite s m e => if (0 <=? e)%Z then f else dbl (if s then - ((Zpos m + 2 ^ (- e) - 1) / 2 ^ (- e)) else trunc m e)%Z
  | _ => f
  end.
Definition nseqN (n : N) : list N := map N.of_nat (seq 0 (N.to_nat n)).

Section Fetcher.
Variable conv : convention.     (* name::setConventionEncoding *)
Variable dconv : convention.    (* name::setConventionDecoding *)
Variable o : fopts.
(* the application's signal handlers: which of the signals they answer with a call of stop() *)
Variable hs : fobs -> bool.

(* segment-fetcher.cpp:87-96 stop *)
Definition fs_stop (s : fetcher) : fetcher :=
  if fs_this s then wLog (fs_log s ++ [OStop]) (wPend [] (wThis false s)) else s.
(* emission of a signal *)
Definition fs_fire (ob : fobs) (s : fetcher) : fetcher :=
  let s1 := wLog (fs_log s ++ [ob]) s in if hs ob then fs_stop s1 else s1.
(* segment-fetcher.cpp:464-469 signalError *)
Definition fs_error (code : N) (s : fetcher) : fetcher := fs_stop (fs_fire (OError code) s).

Definition nm_last (n : name) : option comp := match rev (n_comps n) with [] => None | c :: _ => Some c end.

(* segment-fetcher.cpp:471-482 updateRetransmittedSegment *)
Definition fs_updateRetx (seg : N) (id : nat) (s : fetcher) : res fetcher :=
  match mget seg (fs_pend s) with
  | Some p =>
      match ps_state p with
      | InRetxQueue => Ok (wPend (minsert seg (mkPs (ps_uid p) Retransmitted id (Some id)) (fs_pend s)) s)
      | _ => Err EAssert
      end
  | None => Err EAssert
  end.
(* segment-fetcher.cpp:181-212 sendInterest; the Interest is given by its name, CanBePrefix and MustBeFresh *)
Definition fs_send (seg : N) (n : name) (cbp mbf retx : bool) (s : fetcher) : res fetcher :=
  let id := length (fs_reqs s) in
  let s := wLog (fs_log s ++ [OInterest id n cbp mbf]) (wReqs (fs_reqs s ++ [n]) (wInfl (fs_infl s + 1)%Z s)) in
  if retx then fs_updateRetx seg id s
  else
    match mget seg (fs_pend s) with
    | Some _ => Err EAssert
    | None => Ok (wHighInt seg (wPend (minsert seg (mkPs id FirstInterest id (Some id)) (fs_pend s)) s))
    end.
(* segment-fetcher.cpp:106-124 fetchFirstSegment *)
Definition fs_first (n : name) (retx : bool) (s : fetcher) : res fetcher :=
  let mbf := match nm_last n with Some c => if isKind dconv KVersion c then false else fo_probe o | None => fo_probe o end in
  fs_send 0 n true mbf retx s.

(* segment-fetcher.cpp:484-497 cancelExcessInFlightSegments *)
Definition fs_cancelExcess (s : fetcher) : res fetcher :=
  let lim := toU64 (fs_nseg s) in
  let gone := filter (fun p => lim <=? fst p) (fs_pend s) in
  if (fs_infl s <? Z.of_nat (length gone))%Z then Err EAssert
  else Ok (wInfl (fs_infl s - Z.of_nat (length gone))%Z (wPend (filter (fun p => negb (lim <=? fst p)) (fs_pend s)) s)).
(* segment-fetcher.cpp:499-518 checkAllSegmentsReceived: the answer, and the queue with the missing segments added *)
Definition fs_checkAll (s : fetcher) : bool * fetcher :=
  if negb (fs_nseg s =? 0)%Z && (fs_nseg s <=? fs_nrecv s)%Z then
    let missing := filter (fun i => negb (existsb (N.eqb i) (fs_recv s))) (nseqN (toU64 (fs_nseg s))) in
    (match missing with [] => true | _ => false end, wRetx (fs_retx s ++ missing) s)
  else (false, s).
(* segment-fetcher.cpp:407-426 finalizeFetch *)
Definition fs_finalize (s : fetcher) : res fetcher :=
  if fo_inOrder o then Ok (fs_stop (fs_fire OInOrderComplete s))
  else if N.of_nat (length (fs_recv s)) <? toU64 (fs_nseg s) then Err EAssert
  else
    let b := concat (map (fun i => match mget i (fs_buf s) with Some v => v | None => [] end) (nseqN (Z.to_N (fs_nseg s)))) in
    Ok (fs_stop (fs_fire (OComplete b) s)).

(* segment-fetcher.cpp:428-442 windowIncrease.  C++ double comparison and arithmetic *)
Definition fs_winInc (s : fetcher) : res fetcher :=
  if fo_constCwnd o then (if SFeqb (fs_cwnd s) (fo_initCwnd o) then Ok s else Err EAssert)
  else if SFltb (fs_cwnd s) (fs_ssth s) then Ok (wCwnd (fadd (fs_cwnd s) (fo_aiStep o)) (fs_ssth s) s)
  else Ok (wCwnd (fadd (fs_cwnd s) (fdiv (fo_aiStep o) (ffloor (fs_cwnd s)))) (fs_ssth s) s).
(* segment-fetcher.cpp:444-462 windowDecrease; std::max(a, b) is a < b ? b : a *)
Definition fs_winDec (s : fetcher) : res fetcher :=
  if fo_disableCwa o || (fs_rec s <? fs_highData s) then
    let s := wRec (fs_highInt s) s in
    if fo_constCwnd o then (if SFeqb (fs_cwnd s) (fo_initCwnd o) then Ok s else Err EAssert)
    else
      let m := fmul (fs_cwnd s) (fo_mdCoef o) in
      let t := if SFltb (dbl 2) m then m else dbl 2 in
      Ok (wCwnd (if fo_resetCwnd o then fo_initCwnd o else t) t s)
  else Ok s.

(* segment-fetcher.cpp:146-167 the while loop: the segments to request, and the rest of the queue and the next segment number.
   fuel: at least as many steps as the loop can make, see fs_window *)
Fixpoint fs_pick (fuel : nat) (avail : Z) (retx : list N) (next : N) (s : fetcher) (acc : list (N * bool)) : res (list (N * bool) * list N * N) :=
  if (0 <? avail)%Z then
    match fuel with
    | O => Err EFuel
    | S k =>
        match retx with
        | x :: retx' =>
            match mget x (fs_pend s) with
            | None => fs_pick k avail retx' next s acc
            | Some p =>
                match ps_state p with
                | InRetxQueue => fs_pick k (avail - 1)%Z retx' next s (acc ++ [(x, true)])
                | _ => Err EAssert
                end
            end
        | [] =>
            if (fs_nseg s =? 0)%Z || (next <? toU64 (fs_nseg s)) then
              match mget next (fs_buf s) with
              | Some _ => fs_pick k avail [] ((next + 1) mod two64) s acc
              | None => fs_pick k (avail - 1)%Z [] ((next + 1) mod two64) s (acc ++ [(next, false)])
              end
            else Ok (acc, [], next)
        end
    end
  else Ok (acc, retx, next).
(* segment-fetcher.cpp:169-178 the for loop *)
Fixpoint fs_sendAll (l : list (N * bool)) (s : fetcher) : res fetcher :=
  match l with
  | [] => Ok s
  | (seg, retx) :: l' =>
      let! c := fromKind conv KSegment seg in
      let! s := fs_send seg (nm_append c (fs_ver s)) false false retx s in
      fs_sendAll l' s
  end.
(* segment-fetcher.cpp:126-179 fetchSegmentsInWindow *)
Definition fs_window (s : fetcher) : res fetcher :=
  let '(all, s) := fs_checkAll s in
  if all then fs_finalize s
  else
    let! w := f2i (fs_cwnd s) in
    let w := if fo_inOrder o then Z.min w (toI64 (toU64 (Z.of_N (fo_flowWin o) - Z.of_nat (length (fs_buf s))))) else w in
    let avail := (w - fs_infl s)%Z in
    let! r := fs_pick (Z.to_nat avail + length (fs_retx s) + length (fs_buf s)) avail (fs_retx s) (fs_next s) s [] in
    fs_sendAll (fst (fst r)) (wNext (snd r) (wRetx (snd (fst r)) s)).

(* segment-fetcher.cpp:214-251 afterSegmentReceivedCb.  marked: the Data carries a congestion mark greater than 0.
   The last step starts the validation. *)
Definition fs_data (d : data) (marked : bool) (s : fetcher) : res fetcher :=
  if negb (fs_this s) then Ok s
  else if (fs_infl s <=? 0)%Z then Err EAssert
  else
    let s := wInfl (fs_infl s - 1)%Z s in
    match nm_last (d_name d) with
    | None => Err EUb
    | Some c =>
        if negb (isKind dconv KSegment c) then Ok (fs_error 2 s)
        else
          let! cur := toKind dconv KSegment c in
          let it := match fs_recv s with
                    | [] => match fs_pend s with [] => None | kp :: _ => Some kp end
                    | _ => match mget cur (fs_pend s) with Some p => Some (cur, p) | None => None end
                    end in
          match it with
          | None => Ok s
          | Some (k, p) =>
              let s := wPend (minsert k (mkPs (ps_uid p) (ps_state p) (ps_req p) None) (fs_pend s)) s in
              let s := fs_fire (OReceived d) s in
              Ok (wVals (fs_vals s ++ [Some (d, ps_uid p, marked)]) s)
          end
    end.

(* segment-fetcher.cpp:299-304 the delivery of segments in order *)
Fixpoint fs_deliver (fuel : nat) (s : fetcher) : res fetcher :=
  match fuel with
  | O => Err EFuel
  | S k =>
      let v := match mget (fs_nextOrd s) (fs_buf s) with Some v => v | None => [] end in
      let s := fs_fire (OInOrder v) s in
      let s := wBuf (mremove (fs_nextOrd s) (fs_buf s)) ((fs_nextOrd s + 1) mod two64) s in
      match mget (fs_nextOrd s) (fs_buf s) with Some _ => fs_deliver k s | None => Ok s end
  end.
(* try_emplace and std::copy, segment-fetcher.cpp:280-284: the content is copied over the beginning of what was there *)
Definition overlay (new old : bytes) : res bytes :=
  if nlen old <? nlen new then Err EUb else Ok (new ++ ndrop (nlen new) old).
(* segment-fetcher.cpp:253-325 afterValidationSuccess *)
Definition fs_validated (d : data) (uid : nat) (marked : bool) (now : Z) (s : fetcher) : res fetcher :=
  if negb (fs_this s) then Ok s
  else
    let s := wTlast now s in
    let! cur := (match nm_last (d_name d) with Some c => toKind dconv KSegment c | None => Err EUb end) in
    let s := wNrecv (fs_nrecv s + 1)%Z (sinsert cur (fs_recv s)) s in
    match filter (fun kp => Nat.eqb (ps_uid (snd kp)) uid) (fs_pend s) with
    | [] => Err EUb
    | (k, p) :: _ =>
        if (match ps_state p with FirstInterest => true | _ => false end) && (fs_infl s <? 0)%Z then Err EAssert
        else
          let s := wPend (mremove k (fs_pend s)) s in
          let content := c_val (d_content d) in
          let! v := (match mget cur (fs_buf s) with Some old => overlay content old | None => Ok content end) in
          let s := wBuf (minsert cur v (fs_buf s)) (fs_nextOrd s) s in
          let s := fs_fire (OValidated d) s in
          let go (s : fetcher) : res fetcher :=
            let! s := (if fo_inOrder o && (fs_nextOrd s =? cur) then fs_deliver (S (length (fs_buf s))) s else Ok s) in
            let s := (match fs_recv s with
                      | [_] => let s := wVer (nm_getPrefix (-1) (d_name d)) s in
                               if cur =? 0 then wNext ((fs_next s + 1) mod two64) s else s
                      | _ => s end) in
            let s := (if fs_highData s <? cur then wHighData cur s else s) in
            let! s := (if marked && negb (fo_ignoreCong o) then fs_winDec s else fs_winInc s) in
            fs_window s in
          match mi_final (d_meta d) with
          | Some f =>
              if negb (isKind dconv KSegment f) then Ok (fs_error 5 s)
              else
                let! last := toKind dconv KSegment f in
                let n := (last + 1) mod two64 in
                if n =? toU64 (fs_nseg s) then go s
                else let! s := fs_cancelExcess (wNseg (toI64 n) s) in go s
          | None => go s
          end
    end.
(* segment-fetcher.cpp:327-336 afterValidationFailure *)
Definition fs_invalid (s : fetcher) : fetcher := if negb (fs_this s) then s else fs_error 3 s.

(* segment-fetcher.cpp:374-405 afterNackOrTimeout; n: the name of the Interest *)
Definition fs_retry (n : name) (now : Z) (s : fetcher) : res fetcher :=
  if (fs_tlast s + fo_maxTimeout o <=? now)%Z then Ok (fs_error 1 s)
  else
    match fs_pend s with
    | [] => Err EAssert
    | first :: _ =>
        let! kp := (match nm_last n with
                    | Some c =>
                        if isKind dconv KSegment c then
                          let! x := toKind dconv KSegment c in
                          match mget x (fs_pend s) with Some p => Ok (x, p) | None => Err EAssert end
                        else Ok first
                    | None => Ok first
                    end) in
        let s := wPend (minsert (fst kp) (mkPs (ps_uid (snd kp)) InRetxQueue (ps_req (snd kp)) None) (fs_pend s)) s in
        match fs_recv s with
        | [] => fs_first n true s
        | _ => let! s := fs_winDec s in fs_window (wRetx (fs_retx s ++ [fst kp]) s)
        end
    end.
(* segment-fetcher.cpp:338-360 afterNackReceivedCb; NackReason: CONGESTION = 50, DUPLICATE = 100 *)
Definition fs_nack (n : name) (reason : N) (now : Z) (s : fetcher) : res fetcher :=
  if negb (fs_this s) then Ok s
  else
    let s := fs_fire ONacked s in
    if (fs_infl s <=? 0)%Z then Err EAssert
    else
      let s := wInfl (fs_infl s - 1)%Z s in
      if (reason =? 50) || (reason =? 100) then fs_retry n now s else Ok (fs_error 4 s).
(* segment-fetcher.cpp:362-372 afterTimeoutCb *)
Definition fs_timeout (n : name) (now : Z) (s : fetcher) : res fetcher :=
  if negb (fs_this s) then Ok s
  else
    let s := fs_fire OTimedOut s in
    if (fs_infl s <=? 0)%Z then Err EAssert else fs_retry n now (wInfl (fs_infl s - 1)%Z s).
End Fetcher.

(* What happens to a fetcher, in the order it happens.  Requests, timers (named by their request) and validations that do not
   exist are ignored.  hs: what the signal handlers do during this event. *)
Inductive fev :=
  | FData (id : nat) (d : data) (marked : bool)
  | FNack (id : nat) (reason : N) (now : Z)
  | FTimer (id : nat) (now : Z)
  | FValid (vid : nat) (now : Z)
  | FInvalid (vid : nat)
  | FStop.
Definition clear_timer (id : nat) (kp : N * pseg) : N * pseg :=
  match ps_timer (snd kp) with
  | Some t => if Nat.eqb t id then (fst kp, mkPs (ps_uid (snd kp)) (ps_state (snd kp)) (ps_req (snd kp)) None) else kp
  | None => kp
  end.
Definition has_timer (id : nat) (s : fetcher) : bool :=
  existsb (fun kp => match ps_timer (snd kp) with Some t => Nat.eqb t id | None => false end) (fs_pend s).
Definition replace_nth {A} (i : nat) (x : A) (l : list A) : list A := firstn i l ++ x :: skipn (S i) l.
Definition fs_step (conv dconv : convention) (o : fopts) (ev : fev * (fobs -> bool)) (s : fetcher) : res fetcher :=
  let hs := snd ev in
  match fst ev with
  | FData id d m => match nth_error (fs_reqs s) id with Some _ => fs_data dconv hs d m s | None => Ok s end
  | FNack id r now => match nth_error (fs_reqs s) id with Some n => fs_nack conv dconv o hs n r now s | None => Ok s end
  | FTimer id now =>
      if has_timer id s then
        match nth_error (fs_reqs s) id with
        | Some n => fs_timeout conv dconv o hs n now (wPend (map (clear_timer id) (fs_pend s)) s)
        | None => Ok s
        end
      else Ok s
  | FValid v now =>
      match nth_error (fs_vals s) v with
      | Some (Some (d, uid, m)) => fs_validated conv dconv o hs d uid m now (wVals (replace_nth v None (fs_vals s)) s)
      | _ => Ok s
      end
  | FInvalid v =>
      match nth_error (fs_vals s) v with
      | Some (Some (d, uid, m)) => Ok (fs_invalid hs (wVals (replace_nth v None (fs_vals s)) s))
      | _ => Ok s
      end
  | FStop => Ok (fs_stop s)
  end.
Fixpoint fs_run (conv dconv : convention) (o : fopts) (l : list (fev * (fobs -> bool))) (s : fetcher) : res fetcher :=
  match l with [] => Ok s | e :: l' => let! s' := fs_step conv dconv o e s in fs_run conv dconv o l' s' end.

(* segment-fetcher.cpp:40-59 Options::validate, 61-73 the constructor, 75-85 start *)
Definition fopts_ok (o : fopts) : bool :=
  (1 <=? fo_maxTimeout o)%Z && negb (SFltb (fo_initCwnd o) (dbl 1)) && negb (SFltb (fo_aiStep o) (dbl 0)) &&
  negb (SFltb (fo_mdCoef o) (dbl 0)) && negb (SFltb (dbl 1) (fo_mdCoef o)).
Definition fs_start (dconv : convention) (o : fopts) (base : name) (now : Z) : res fetcher :=
  if fopts_ok o then
    fs_first dconv o base false
      (mkFs true now [] nm_empty 0 (fo_initCwnd o) (fo_initSsthresh o) 0 0 0 0 0 0 0 [] [] [] [] [] [])
  else Err EInvalidArg.
(* a fetch: start, and what happens afterwards *)
Definition fs_fetch (conv dconv : convention) (o : fopts) (base : name) (now : Z) (l : list (fev * (fobs -> bool))) : res fetcher :=
  let! s := fs_start dconv o base now in fs_run conv dconv o l s.
