(* Model of security/detail/certificate-bundle-decoder.{hpp,cpp}, security/certificate-bundle-fetcher.cpp and the checks of security/certificate.cpp. *)
From Verif Require Import Base M_Tlv M_Str M_Name S_Name M_Packet M_Pib.
Open Scope list_scope.
Open Scope N_scope.

(* certificate.cpp:41-63 Certificate(const Block&): a Data with a certificate name, ContentType Key (2) and a FreshnessPeriod *)
Definition cert_of (e : elem) : res data :=
  match da_decode e da_empty with
  | (_, Some x) => Err x
  | (d, None) =>
      if negb (isValidCertName (nkey (d_name d))) then Err ETlv
      else if negb (mi_type (d_meta d) =? 2) then Err ETlv
      else if (mi_getFreshnessPeriod (d_meta d) <=? 0)%Z then Err ETlv
      else Ok d
  end.

(* ---- CertificateBundleDecoder ---- *)
(* certificate-bundle-decoder.hpp:66-68 *)
Record bdec := mkBd { bd_buf : bytes; bd_err : bool }.
Definition bd_new : bdec := mkBd [] false.
(* certificate-bundle-decoder.cpp:38-59 decode(): the certificates given to the handlers of onCertDecoded, what stays in the buffer, the exception.
   The handlers return and do not call append.  The fuel is never used up (P_Bundle.loop_sound). *)
Fixpoint bd_loop (fuel : nat) (buf : bytes) : list data * bytes * option err :=
  match fuel with
  | O => ([], buf, Some EFuel)
  | S n =>
      match buf with
      | [] => ([], [], None)
      | _ =>
          match fromBuffer buf with
          | None => ([], buf, None)
          | Some (e, rest) =>
              if e_type e =? tData then
                match cert_of e with
                | Err x => ([], rest, Some x)
                | Ok c => let '(cs, b, r) := bd_loop n rest in (c :: cs, b, r)
                end
              else if isCriticalType (e_type e) then ([], rest, Some ETlv)
              else bd_loop n rest
          end
      end
  end.
(* certificate-bundle-decoder.cpp:27-36 append, of a Block with the TLV-VALUE w *)
Definition bd_append (w : bytes) (d : bdec) : bdec * list data * option err :=
  if bd_err d then (d, [], Some ETlv)
  else
    let '(cs, b, r) := bd_loop (S (length (bd_buf d ++ w))) (bd_buf d ++ w) in
    (mkBd b (match r with Some _ => true | None => false end), cs, r).
(* the calls of append one after the other, each with the certificates it gave and its exception *)
Fixpoint bd_run (ws : list bytes) (d : bdec) : bdec * list (list data * option err) :=
  match ws with
  | [] => (d, [])
  | w :: ws' =>
      let '(d1, cs, r) := bd_append w d in
      let (d2, l) := bd_run ws' d1 in (d2, (cs, r) :: l)
  end.

(* ---- CertificateBundleFetcher ---- *)
(* certificate-bundle-fetcher.cpp:196-217 deriveBundleName.  dconv: the convention of isSegment *)
Definition bf_derive (dconv : convention) (n : name) : res name :=
  let! last := nm_at (-1) n in
  let! base :=
    (if isImplicitSha256Digest last then
       (if 2 <=? nm_size n then
          let! c := nm_get (-2) n in Ok (if isKind dconv KSegment c then nm_getPrefix (-2) n else nm_getPrefix (-1) n)
        else Ok (nm_getPrefix (-1) n))
     else if isKind dconv KSegment last then Ok (nm_getPrefix (-1) n)
     else Ok n) in
  let! z := fromNumber 0 tGenericNameComponent in
  Ok (nm_append z (nm_append (comp_ofString (str "_BUNDLE")) base)).

(* what the fetcher does next for a request: hands it to the inner fetcher, sends an Interest, continues validation with a certificate, or an exception leaves it *)
Inductive bf_out := BfInner | BfExpress (n : name) (canBePrefix mustBeFresh : bool) | BfContinue (c : data) | BfThrow (e : err).
(* the tags of the ValidationState: BundleNameTag, FinalBlockIdTag (certificate-bundle-fetcher.hpp:135-136) *)
Record bf_tags := mkBt { bt_name : option name; bt_final : option comp }.
(* certificate-bundle-fetcher.cpp:104-130 fetchNextBundleSegment *)
Definition bf_next (full : name) (seg : comp) (t : bf_tags) : bf_out :=
  match bt_final t with
  | Some f => if (0 <? comp_compare seg f)%Z then BfInner else BfExpress (nm_append seg (nm_getPrefix (-1) full)) false false
  | None => BfExpress (nm_append seg (nm_getPrefix (-1) full)) false false
  end.
(* certificate-bundle-fetcher.cpp:53-79 doFetch, 81-102 fetchFirstBundleSegment.  orig: the name of the Data packet to validate, None when an Interest is validated *)
Definition bf_fetch (dconv : convention) (orig : option name) (t : bf_tags) : bf_out :=
  match orig with
  | None => BfInner
  | Some o =>
      match bt_name t with
      | None => if nm_size o =? 0 then BfInner
                else match bf_derive dconv o with Ok n => BfExpress n true true | Err x => BfThrow x end
      | Some full =>
          match nm_get (-1) full with
          | Err x => BfThrow x
          | Ok c => match comp_getSuccessor c with Ok s => bf_next full s t | Err x => BfThrow x end
          end
      end
  end.
(* certificate-bundle-fetcher.cpp:162-165: the certificates put into the unverified cache, and the exception *)
Fixpoint bf_certs (es : list elem) : list data * option err :=
  match es with
  | [] => ([], None)
  | e :: es' => match cert_of e with
                | Err x => ([], Some x)
                | Ok c => let (cs, r) := bf_certs es' in (c :: cs, r)
                end
  end.
(* certificate-bundle-fetcher.cpp:132-170 dataCallback.  cache: the certificates in the unverified cache; find: its lookup with the request's Interest.
   A null pointer that is dereferenced is EUb.  The result: tags, cache, what happens. *)
Definition bf_data (dconv econv : convention) (find : list data -> option data) (zero : bool) (b : data) (t : bf_tags) (cache : list data) : bf_tags * list data * bf_out :=
  match nm_get (-1) (d_name b) with
  | Err x => (t, cache, BfThrow x)
  | Ok cur =>
      if negb (isKind dconv KSegment cur) then (t, cache, BfInner)
      else
        match (if zero then toKind dconv KSegment cur else Ok 0) with
        | Err x => (t, cache, BfThrow x)
        | Ok s =>
            if negb (s =? 0) then
              match fromKind econv KSegment 0 with Ok z => (t, cache, bf_next (d_name b) z t) | Err x => (t, cache, BfThrow x) end
            else
              let t' := mkBt (Some (d_name b)) (match mi_final (d_meta b) with Some f => Some f | None => bt_final t end) in
              match parseValue (c_val (d_content b)) with
              | Err x => (t', cache, BfThrow x)
              | Ok es =>
                  let (cs, r) := bf_certs es in
                  let cache' := cache ++ cs in
                  match r with
                  | Some x => (t', cache', BfThrow x)
                  | None => match find cache' with Some c => (t', cache', BfContinue c) | None => (t', cache', BfThrow EUb) end
                  end
              end
        end
  end.
(* certificate-bundle-fetcher.cpp:172-194 nackCallback, timeoutCallback *)
Definition bf_fail : bf_out := BfInner.
