(* Specification vocabulary for C47: a network that answers each request of a SegmentFetcher at most once, with the segments of one object. *)
From Coq Require Import ZArith SpecFloat.
From Verif Require Import Base M_Name M_Packet M_Rtt M_Fetcher S_Fetcher.
Open Scope N_scope.

(* the segment number that a name ends with *)
Definition name_segno (dconv : convention) (n : name) : option N :=
  match rev (n_comps n) with
  | c :: _ => if isKind dconv KSegment c then match toKind dconv KSegment c with Ok i => Some i | Err _ => None end else None
  | [] => None
  end.
(* the request that an event answers: a Data, a Nack, or the expiry of the timer *)
Definition ev_req (e : fev) : list nat := match e with FData id _ _ | FNack id _ _ | FTimer id _ => [id] | _ => [] end.
(* what is added to the requests answered by an event in state s: only requests already sent count *)
Definition answers (e : fev) (s : fetcher) : list nat := filter (fun id => Nat.ltb id (length (fs_reqs s))) (ev_req e).
(* An event of such a network; f is the last segment of the object, used the requests answered before.  A Data is one of the segments 0, ..., f, names f as
   FinalBlockId, and is the segment that was asked for, if the Interest asked for one.  If the fetch is in order, the first one is segment 0. *)
Definition polite_ev (dconv : convention) (o : fopts) (f : N) (used : list nat) (e : fev) (s : fetcher) : Prop :=
  match e with
  | FData id d _ => ~ In id used /\
      forall n, nth_error (fs_reqs s) id = Some n ->
        finalno dconv d = Some f /\ exists k, segno dconv d = Some k /\ k <= f /\
          (forall j, name_segno dconv n = Some j -> k = j) /\ (name_segno dconv n = None -> fo_inOrder o = true -> k = 0)
  | FNack id _ _ => ~ In id used
  | _ => True
  end.
Fixpoint polite (conv dconv : convention) (o : fopts) (f : N) (used : list nat) (l : list (fev * (fobs -> bool))) (s : fetcher) : Prop :=
  match l with
  | [] => True
  | e :: l' => polite_ev dconv o f used (fst e) s /\
      match fs_step conv dconv o e s with Ok s' => polite conv dconv o f (answers (fst e) s ++ used) l' s' | Err _ => True end
  end.
(* the requests answered in a history *)
Fixpoint answered (conv dconv : convention) (o : fopts) (l : list (fev * (fobs -> bool))) (s : fetcher) : list nat :=
  match l with
  | [] => []
  | e :: l' => match fs_step conv dconv o e s with Ok s' => answered conv dconv o l' s' ++ answers (fst e) s | Err _ => [] end
  end.
(* the number of requests sent and not answered *)
Definition outstanding (used : list nat) (s : fetcher) : nat :=
  length (filter (fun id => negb (existsb (Nat.eqb id) used)) (seq 0 (length (fs_reqs s)))).
(* The windows (and slow start thresholds) that at most n increases and decreases can lead to *)
Inductive window_after (o : fopts) : nat -> spec_float -> spec_float -> Prop :=
| WStart : window_after o 0 (fo_initCwnd o) (fo_initSsthresh o)
| WSame : forall n w t, window_after o n w t -> window_after o (S n) w t
| WSlow : forall n w t, window_after o n w t -> fo_constCwnd o = false -> window_after o (S n) (fadd w (fo_aiStep o)) t
| WUp : forall n w t, window_after o n w t -> fo_constCwnd o = false -> window_after o (S n) (fadd w (fdiv (fo_aiStep o) (ffloor w))) t
| WDown : forall n w t t', window_after o n w t -> fo_constCwnd o = false ->
    t' = (let m := fmul w (fo_mdCoef o) in if SFltb (dbl 2) m then m else dbl 2) -> window_after o (S n) (if fo_resetCwnd o then fo_initCwnd o else t') t'.
(* the window is always a number that, rounded down, is at least 1 and fits an int64_t *)
Definition windows_ok (o : fopts) (n : nat) : Prop := forall w t, window_after o n w t -> exists z, f2i w = Ok z /\ (1 <= z)%Z.
(* a validation is under way *)
Definition validating (s : fetcher) : Prop := exists v x, nth_error (fs_vals s) v = Some (Some x).
