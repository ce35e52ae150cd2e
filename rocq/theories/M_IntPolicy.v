(* Model of security/validation-policy-command-interest.{hpp,cpp}, validation-policy-signed-interest.{hpp,cpp}, and of
   getSignatureInfo and getKeyLocatorName in validation-policy.cpp *)
From Verif Require Import Base M_Tlv M_Str M_Name S_Name M_Packet M_Ims M_Control M_Signer.
From Coq Require Import ZArith.
Open Scope Z_scope.

(* What the policies look at in an Interest, as left by Validator::validate (validator.cpp:67-70): the SignatureInfo of a v0.3 signed Interest, or
   just the name, for a v0.2 one *)
Inductive sint := V03 (si : siginfo) | V02 (n : name).
(* how a policy step ends: state->fail was called, or it went on *)
Inductive pstep (A : Type) := PFail | PGo (a : A).
Arguments PFail {A}. Arguments PGo {A}.

(* util/signing-info.cpp:31-36 *)
Definition digestIdentity : list key := [(8%N, str "localhost"); (8%N, str "identity"); (8%N, str "digest-sha256")].
Definition tDigestSha256 : N := 0.
(* validation-policy.cpp:82-109; signed_interest::MIN_SIZE = 2, POS_SIG_INFO = -2 *)
Definition getSignatureInfo (i : sint) : res (pstep siginfo) :=
  match i with
  | V03 si => Ok (PGo si)
  | V02 n =>
      if (nlen (n_comps n) <? 2)%N then Ok PFail
      else
        let! c := nm_get (-2) n in
        match blockFromValue (mkElem (c_type c) [] (c_val c)) with
        | Err ETlv => Ok PFail
        | Err e => Err e
        | Ok b => match si_decode SiData b with
                  | (_, Some ETlv) => Ok PFail
                  | (_, Some e) => Err e
                  | (si, None) => Ok (PGo si)
                  end
        end
  end.
(* validation-policy.cpp:61-80; names as lists of keys *)
Definition getKeyLocatorName (si : siginfo) : pstep (list key) :=
  if match si_type si with Some t => (t =? tDigestSha256)%N | None => false end then PGo digestIdentity
  else match si_key si with
       | Some k => match kl_loc k with KlName n => PGo (nkey n) | _ => PFail end
       | None => PFail
       end.
(* signature-info.cpp:245-253: ms from uint64_t, converted to the nanoseconds of the system clock; readNonNegativeInteger may throw *)
Definition ms_time (n : N) : res Z := i64 (u64_time n * 1000000).
Definition si_getTime (si : siginfo) : res (option Z) :=
  let! o := si_getNumber tSignatureTime si in
  match o with Some n => let! t := ms_time n in Ok (Some t) | None => Ok None end.

(* ---- command Interests ---- *)
Record copts := mkCO { co_grace : Z; co_max : Z; co_life : Z }.
Record crec := mkCR { cr_key : list key; cr_ts : Z; cr_ref : Z }.
(* m_queue; the first index only makes keys unique *)
Definition cstate := list crec.
(* validation-policy-command-interest.cpp:26-39 *)
Definition co_init (o : copts) : copts := mkCO (Z.max (co_grace o) 0) (co_max o) (co_life o).
(* 65-109 parseCommandInterest; command_interest::MIN_SIZE = 4, POS_TIMESTAMP = -4 *)
Definition parseCommand (i : sint) : res (pstep (list key * Z)) :=
  let! s := getSignatureInfo i in
  match s with
  | PFail => Ok PFail
  | PGo si =>
      let! t := (match i with
                 | V03 _ => let! o := si_getTime si in Ok (match o with Some t => PGo t | None => PFail end)
                 | V02 n =>
                     if (nlen (n_comps n) <? 4)%N then Ok PFail
                     else
                       let! c := nm_at (-4) n in
                       if isNumber c then let! v := toNumber c in let! t := ms_time v in Ok (PGo t) else Ok PFail
                 end) in
      match t with
      | PFail => Ok PFail
      | PGo t => match getKeyLocatorName si with PFail => Ok PFail | PGo k => Ok (PGo (k, t)) end
      end
  end.
(* 111-121 cleanup *)
Fixpoint cleanLoop (o : copts) (expiring : Z) (q : cstate) : cstate :=
  match q with
  | [] => []
  | r :: q' => if (cr_ref r <=? expiring) || ((0 <=? co_max o) && (co_max o <? Z.of_N (nlen q))) then cleanLoop o expiring q' else q
  end.
Definition cleanup (o : copts) (steady : Z) (q : cstate) : res cstate := let! e := i64 (steady - co_life o) in Ok (cleanLoop o e q).
Definition cfind (k : list key) (q : cstate) : option crec := List.find (fun r => names_eqb (cr_key r) k) q.
(* 123-151 checkTimestamp *)
Definition checkTimestamp (o : copts) (sys steady : Z) (k : list key) (ts : Z) (q : cstate) : res (cstate * bool) :=
  let! q1 := cleanup o steady q in
  let! lo := i64 (sys - co_grace o) in
  let! hi := i64 (sys + co_grace o) in
  if (ts <? lo) || (hi <? ts) then Ok (q1, false)
  else match cfind k q1 with
       | Some r => if ts <=? cr_ts r then Ok (q1, false) else Ok (q1, true)
       | None => Ok (q1, true)
       end.
(* 153-168 insertNewRecord, run when the whole validation succeeds *)
Definition insertNewRecord (steady : Z) (k : list key) (ts : Z) (q : cstate) : cstate :=
  filter (fun r => negb (names_eqb (cr_key r) k)) q ++ [mkCR k ts steady].

(* ---- signed Interests ---- *)
Record sopts := mkSO { so_ts : bool; so_grace : Z; so_seq : bool; so_nonce : bool; so_maxNonce : Z; so_max : Z }.
Record srec := mkSR { sr_key : list key; sr_ts : option Z; sr_seq : option N; sr_nonces : list bytes; sr_ref : Z }.
(* the container in the order of its second index, lastRefreshed *)
Definition sstate := list srec.
(* validation-policy-signed-interest.cpp:26-38 *)
Definition so_init (o : sopts) : sopts := mkSO (so_ts o) (Z.max (so_grace o) 0) (so_seq o) (so_nonce o) (so_maxNonce o) (so_max o).
Definition sfind (k : list key) (q : sstate) : option srec := List.find (fun r => names_eqb (sr_key r) k) q.
(* the values that checkIncomingInterest reads *)
Record svals := mkSVals { sv_key : list key; sv_ts : option Z; sv_seq : option N; sv_nonce : option bytes }.
(* 68-83 *)
Definition parseSigned (si : siginfo) : res (pstep svals) :=
  match getKeyLocatorName si with
  | PFail => Ok PFail
  | PGo k => let! t := si_getTime si in let! n := si_getNumber tSignatureSeqNum si in Ok (PGo (mkSVals k t n (si_getNonce si)))
  end.
(* 85-133: the checks; true = passed *)
Definition checkSigned (o : sopts) (sys : Z) (v : svals) (q : sstate) : res bool :=
  let r := sfind (sv_key v) q in
  let! a := (if so_ts o then
               match sv_ts v with
               | None => Ok false
               | Some t =>
                   let! d := i64 (sys - t) in
                   let! a := i64 (Z.abs d) in
                   if so_grace o <? a then Ok false
                   else Ok (match r with Some x => match sr_ts x with Some y => negb (t <=? y) | None => true end | None => true end)
               end
             else Ok true) in
  if negb a then Ok false
  else
    let b := if so_seq o then
               match sv_seq v with
               | None => false
               | Some n => match r with Some x => match sr_seq x with Some y => negb (n <=? y)%N | None => true end | None => true end
               end
             else true in
    if negb b then Ok false
    else Ok (if so_nonce o then
               match sv_nonce v with
               | None => false
               | Some n => match r with Some x => negb (existsb (bytes_eqb n) (sr_nonces x)) | None => true end
               end
             else true).
(* insertion in the ordered_non_unique index: after the elements not greater *)
Fixpoint sinsert (r : srec) (q : sstate) : sstate := match q with [] => [r] | x :: q' => if sr_ref r <? sr_ref x then r :: q else x :: sinsert r q' end.
(* multi_index modify: the element stays in place if the order allows it, otherwise it is inserted anew *)
Fixpoint smodify (k : list key) (f : srec -> srec) (prev : sstate) (q : sstate) : sstate :=
  match q with
  | [] => prev
  | x :: q' =>
      if names_eqb (sr_key x) k then
        let y := f x in
        let okPrev := match rev prev with p :: _ => negb (sr_ref y <? sr_ref p) | [] => true end in
        let okNext := match q' with p :: _ => negb (sr_ref p <? sr_ref y) | [] => true end in
        if okPrev && okNext then prev ++ y :: q' else sinsert y (prev ++ q')
      else smodify k f (prev ++ [x]) q'
  end.
Definition orElse {A} (a b : option A) : option A := match a with Some _ => a | None => b end.
(* 145-183 insertRecord, run when the whole validation succeeds *)
Definition insertRecord (o : sopts) (steady : Z) (v : svals) (q : sstate) : res sstate :=
  let q1 := match sfind (sv_key v) q with
            | None => sinsert (mkSR (sv_key v) (sv_ts v) (sv_seq v) [] steady) q
            | Some _ => smodify (sv_key v) (fun r => mkSR (sr_key r) (orElse (sv_ts v) (sr_ts r)) (orElse (sv_seq v) (sr_seq r)) (sr_nonces r) steady) [] q
            end in
  let! q2 := (match sv_nonce v with
              | Some n =>
                  if so_nonce o && negb (so_maxNonce o =? 0) then
                    let add l := if existsb (bytes_eqb n) l then l else l ++ [n] in
                    let over l := (0 <=? so_maxNonce o) && (so_maxNonce o <? Z.of_N (nlen l)) in
                    match sfind (sv_key v) q1 with
                    | None => Err EUb
                    | Some r =>
                        let l := add (sr_nonces r) in
                        if over l && negb (Z.of_N (nlen l) =? so_maxNonce o + 1) then Err EAssert
                        else Ok (smodify (sv_key v) (fun r => mkSR (sr_key r) (sr_ts r) (sr_seq r) (if over l then tl l else l) (sr_ref r)) [] q1)
                    end
                  else Ok q1
              | None => Ok q1
              end) in
  if (0 <=? so_max o) && (so_max o <? Z.of_N (nlen q2)) then
    if Z.of_N (nlen q2) =? so_max o + 1 then Ok (tl q2) else Err EAssert
  else Ok q2.

(* ---- histories.  Validations overlap: an Interest that passed the policy's checks is pending until the inner policy, the certificate
   retrieval and the signature check have decided; on success the afterSuccess signal runs the insertion (validation-state.cpp:131-137), on failure
   nothing happens.  ids number the Interests that passed. ---- *)
Inductive iev :=
| EvCheck (sys steady : Z) (i : sint)   (* an Interest is given to the policy, at these clock readings *)
| EvDone (id : N) (steady : Z)          (* the validation of a pending Interest succeeds *)
| EvDrop (id : N).                      (* or fails *)
(* what an observer sees *)
Inductive iobs (A : Type) :=
| ObPass (id : N) (sys steady : Z) (a : A)
| ObRefuse (sys steady : Z) (i : sint)
| ObThrow (sys steady : Z) (e : err)
| ObDone (id : N) (steady : Z) (a : A)
| ObDrop (id : N)
| ObNothing.
Arguments ObPass {A}. Arguments ObRefuse {A}. Arguments ObThrow {A}. Arguments ObDone {A}. Arguments ObDrop {A}. Arguments ObNothing {A}.
Record pst (Q A : Type) := mkPS { ps_tab : Q; ps_pend : list (N * A); ps_next : N }.
Arguments mkPS {Q A}. Arguments ps_tab {Q A}. Arguments ps_pend {Q A}. Arguments ps_next {Q A}.
Definition pend_get {A} (id : N) (l : list (N * A)) : option A := option_map snd (List.find (fun p => (fst p =? id)%N) l).
Definition pend_del {A} (id : N) (l : list (N * A)) : list (N * A) := filter (fun p => negb (fst p =? id)%N) l.

Section Policy.
Variables Q A : Type.
(* the check of an Interest, giving the new table, and the values to insert on success *)
Variable check : Z -> Z -> sint -> Q -> res (Q * pstep A).
Variable insert : Z -> A -> Q -> res Q.
Definition p_step (e : iev) (s : pst Q A) : res (pst Q A * iobs A) :=
  match e with
  | EvCheck sys steady i =>
      match check sys steady i (ps_tab s) with
      | Err e => if catchable e then Ok (s, ObThrow sys steady e) else Err e
      | Ok (q, PFail) => Ok (mkPS q (ps_pend s) (ps_next s), ObRefuse sys steady i)
      | Ok (q, PGo a) => Ok (mkPS q ((ps_next s, a) :: ps_pend s) (ps_next s + 1)%N, ObPass (ps_next s) sys steady a)
      end
  | EvDone id steady =>
      match pend_get id (ps_pend s) with
      | None => Ok (s, ObNothing)
      | Some a => let! q := insert steady a (ps_tab s) in Ok (mkPS q (pend_del id (ps_pend s)) (ps_next s), ObDone id steady a)
      end
  | EvDrop id => Ok (mkPS (ps_tab s) (pend_del id (ps_pend s)) (ps_next s), ObDrop id)
  end.
(* the state and the observations after a history *)
Fixpoint p_run (l : list iev) (s : pst Q A) : res (pst Q A * list (iobs A)) :=
  match l with
  | [] => Ok (s, [])
  | e :: l' => let! r := p_step e s in let! r' := p_run l' (fst r) in Ok (fst r', snd r :: snd r')
  end.
End Policy.

(* validation-policy-command-interest.cpp:47-62 checkPolicy *)
Definition cmd_check (o : copts) (sys steady : Z) (i : sint) (q : cstate) : res (cstate * pstep (list key * Z)) :=
  let! p := parseCommand i in
  match p with
  | PFail => Ok (q, PFail)
  | PGo a => let! r := checkTimestamp o sys steady (fst a) (snd a) q in Ok (fst r, if snd r then PGo a else PFail)
  end.
Definition cmd_insert (steady : Z) (a : list key * Z) (q : cstate) : res cstate := Ok (insertNewRecord steady (fst a) (snd a) q).
Definition cmd_run (o : copts) (l : list iev) := p_run _ _ (cmd_check (co_init o)) cmd_insert l (mkPS (Q := cstate) [] [] 0%N).
(* validation-policy-signed-interest.cpp:48-66 checkPolicy; v0.2 Interests are left to the inner policy (None), and nothing is recorded if
   maxRecordCount is 0 (135-141) *)
Definition sgn_check (o : sopts) (sys steady : Z) (i : sint) (q : sstate) : res (sstate * pstep (option svals)) :=
  match i with
  | V02 _ => Ok (q, PGo None)
  | V03 si =>
      let! p := parseSigned si in
      match p with
      | PFail => Ok (q, PFail)
      | PGo v => let! b := checkSigned o sys v q in Ok (q, if b then PGo (Some v) else PFail)
      end
  end.
Definition sgn_insert (o : sopts) (steady : Z) (a : option svals) (q : sstate) : res sstate :=
  match a with
  | None => Ok q
  | Some v => if so_max o =? 0 then Ok q else insertRecord o steady v q
  end.
Definition sgn_run (o : sopts) (l : list iev) := p_run _ _ (sgn_check (so_init o)) (sgn_insert (so_init o)) l (mkPS (Q := sstate) [] [] 0%N).
