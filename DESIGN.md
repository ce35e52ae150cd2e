# Formal model of ndn-cxx in Rocq: design

## Method

* The model is ordinary Gallina (total, computable functions).  Every definition
  of a model file carries a comment naming the file and lines in `/repo` it models,
  and says where it simplifies.
* Octets are `Byte.byte`, octet strings `list byte`, numbers `N` (or `Z` for signed
  quantities); 64-bit wrap-around is written `mod 2^64` where the code can wrap.
* C++ exceptions are the `Err` branch of a result type.  Undefined behaviour, failed
  `BOOST_ASSERT` and `std::terminate` are separate error values, so that no theorem
  can treat them as a normal outcome.  Functions that change an object before they
  throw return the changed object together with the exception.
* Objects with internal state (caches, tables, timers) are state machines:
  `init`, `step`, and theorems by induction over an arbitrary list of operations.
  Re-entrancy (API calls from callbacks) is modelled by letting a callback be an
  arbitrary list of further operations.
* SHA-256, signature verification, random numbers, the clock, `std::regex` on one
  component, and the network are arguments of the model functions; theorems
  quantify over them.  Nothing is an axiom.
* File layout: `M_*.v` model, `S_*.v` independent specifications, `P_*.v` proofs,
  `T_*.v` theorem statements (each `Theorem` with its non-vacuity `Example`
  and `Print Assumptions`).
* A property that is false of the faithful model is proved in the strongest
  restricted form (suffix `_partial`) and the failure is exhibited by a theorem with
  suffix `_refuted`.

## Plan per property

| Id | Modelled | Proof |
|----|----------|-------|
| C01-C03 | tlv.hpp readers/writers, encoder number writers on octet lists | arithmetic on big-endian digits, induction on lists |
| C04-C06 | Block: fromBuffer, parse with its element cache, encode; trees of elements | induction on value length / on trees; C06 expected refuted |
| C07-C08 | Encoder as (storage, begin, end) with growth; Estimator as counter | invariant over operation list |
| C09-C15 | Component, Name, URI functions, comparison, successor | structural induction; order laws by lexicographic lemmas |
| C16-C18, C25 | Interest object with all fields and wire cache | element-list decoder automaton; invariant over setter histories |
| C19 | matchesData case analysis vs declarative spec | case split |
| C20-C24 | Data, MetaInfo, KeyLocator, SignatureInfo with wire caches | as for Interest; cache coherence invariant over call histories |
| C26-C29 | lp::Packet as ordered list of fields | invariant over histories, round trip |
| C30-C34 | InMemoryStorage: ordered table, free-entry stack, capacity, freshness, policies | invariant over histories; refinement to a sorted set; small limits refuted |
| C35-C37 | Scheduler: ordered queue, timer arm state, callbacks as operation lists | invariant over event traces |
| C38-C41 | Face::Impl: pending table, filters, nack counters, timers | trace invariant |
| C42-C43 | StreamTransportImpl receive buffer and send queue | induction over chunks / over schedules |
| C44 | Segmenter | induction on input length |
| C45-C47 | SegmentFetcher as event machine | trace invariant; C47 expected refuted |
| C48 | RttEstimator over integer nanoseconds, averaging function abstract where floating point | invariant |
| C49-C50 | Validator + ValidationState with abstract policy, fetcher and verifier | induction on depth budget |
| C51-C53 | signed-interest / command-interest policies, InterestSigner | invariant over histories |
| C54-C55 | ValidityPeriod, CertificateCache | arithmetic; invariant |
| C56 | hex transforms with carried odd octet | induction over chunk lists |
| C57 | Signal with slots list and handlers as scripts | invariant; exceptional case expected refuted |
| C58 | matcher algorithm on pattern syntax trees | equivalence with a denotational semantics; nullable repeats expected refuted |
| C59-C61 | ControlParameters, command formats, StatusDatasetContext | round trip, bit arithmetic, induction over calls |
| C62-C66 | further properties of Interest, the storage, the transport and Block, found while modelling | as for the component concerned |
| C67 | TrustAnchorContainer, TrustAnchorGroup over a changing file system | invariant over histories |
| C68-C69 | pattern text to matcher tree; RegexTopMatcher::fromName | induction on the pattern text, on the name |
| C70 | Pib front end with its caches, PibMemory back end | simulation of a documented tree, over histories |
| C71-C72 | KeyChain over the PIB and the in-memory TPM, abstract signature scheme | invariant linking both stores, over histories |
| C73 | ValidatorConfig: loading and checking | realization relation between property tree and configuration, kept by every check |
| C74-C75 | hierarchical rules and ValidationPolicySimpleHierarchy in the validator | mutual induction over the trust relation of C50 |
| C76-C78 | Dispatcher with the filter table of the Face and its FIFO storage | invariants over histories; every output justified by the history before it |
| C79-C81 | elements of the NFD datasets, dataset payloads, ControlResponse | one table-driven codec for all classes; round trip, both directions of decoding, composition with C61 |
| C82-C84 | NotificationSubscriber | state machine over calls, posted functions and answers; invariant on handle, queue and table; invariant on the log |
| C85-C87 | Link, MetadataObject, PrefixAnnouncement | invariant over histories: the packet says what the object says; acceptance as an equivalence with a relation on elements |
| C88-C90 | nfd::Controller | acceptance as an equivalence; invariants over histories of calls, network events and reentrant callbacks |
| C91-C93 | SafeBag, AdditionalDescription, SigningInfo text | round trips, exact acceptance, histories; counterexamples for the parts that fail |
| C94-C95 | certificate bundles | refinement of the decoder to the concatenated octets for every segmentation; requests of the fetcher, with counterexamples for the parts that fail |
| C96 | levels of loggers | invariant of the table of settings, refinement to "the last setting for it"; counterexample for patterns not ending at a dot |
| C97 | texts of FaceUri | parser equivalent to an inductive grammar; round trip follows from the grammar; counterexamples for the constructors |
| C98 | canonical FaceUris | case analysis over providers, for all address parsers and resolvers; counterexamples for link-local addresses, the null Ethernet address, brackets and ports |
| C99 | callbacks of name resolution | all schedules of answer, handler and timer, by the first event that matters; counterexample when the timer overtakes a waiting answer |
| C100 | addresses, state and MTU of a network interface and their signals | all histories of calls, by induction; counterexample: changed flags of an address are not signalled |
| C101 | output of an indented stream | all histories of writes and flushes, by induction over lines; counterexample for a flush within a line |
| C102 | tags of packets and link fields | all packets and tags, with the NDNLPv2 codec of C26-C28; counterexample for a cache policy that cannot be read |
| C103 | scoped cancel handles | all valid histories of making, moving, assigning, cancelling, releasing and destroying, by an invariant that accounts for every operation; counterexample for moving onto itself |

## Trusted base

### The proof assistant

* The kernel of Coq 8.16.1, including its `vm_compute` reduction machine (used for
  the computed `Example`s, for witnesses of `_refuted` theorems, and for checks over
  all 256 octets).
* `Print Assumptions` follows every theorem in the `T_*.v` files.  It prints "Closed
  under the global context" for all of them except `C48_defined` and `C48_follows`,
  which speak about real numbers and list four axioms of the standard library:
  `ClassicalDedekindReals.sig_not_dec`, `ClassicalDedekindReals.sig_forall_dec`,
  `FunctionalExtensionality.functional_extensionality_dep`, `Classical_Prop.classic`.
* These two theorems use Flocq to relate `SpecFloat` operations to real numbers.
  Flocq adds no axioms.  No other file needs a library beyond Coq's own.
* A whole-library checker (`coqchk`) also lists constants of `Coq.ssr.ssrunder` and
  `Coq.Reals.Rdefinitions.RbaseSymbolsImpl`.  They are sealed by a module signature in
  the standard library and are loaded with it; no theorem here depends on them unless
  `Print Assumptions` says so.
* No `Axiom`, `Parameter`, `Admitted`, functor or module type occurs in the sources.
  `Variable`s occur inside `Section`s only and become arguments of the theorems.

### The reading of the code

Each definition of an `M_*.v` file cites the lines it was written from.  That the
definitions say what those lines say is trusted.  It was checked by reading, and by the
witnesses of the `_refuted` theorems, which are short runs that can be followed by hand.
The following assumptions about the environment of the code are built in:

* `size_t`, `uint64_t` and pointers have 64 bits; `int64_t` overflow is undefined
  behaviour (`EUb`); `BOOST_ASSERT` is enabled, and a failing one is `EAssert`.
* Allocation succeeds below a fixed bound and otherwise fails with `ELength`
  (`MAX_BUFFER`).
* `double` is IEEE 754 binary64, round to nearest even, no excess precision, no fused
  multiply-add (C45-C48).
* Boost.Asio does what it documents: a handler runs once, from the event loop, after its
  operation completed or was cancelled (C35-C43, C64, C65, C99).
* Boost.MultiIndex orders and replaces elements as documented (C30-C34, C51, C55, C67).
* Boost.DateTime uses the published Gregorian day number algorithm and parses
  `YYYYMMDDThhmmss` as documented (C54).
* `std::regex` on a single component is a parameter (C58, C68, C69, C73, C74).  C69, C73 and C74 assume that an
  escaped literal matches itself only and that `.*` matches everything.
* SHA-256 is an arbitrary function.  Where a theorem needs it to produce 32 octets or to
  have no collision among given inputs, that is a hypothesis.
* Signature creation and verification are arbitrary functions.  C71 and C72 assume
  (`crypto_ok`) that a public key derived from a private key verifies its signatures,
  and that a public key that verifies one signature of a private key verifies them all.

### Modelled and not modelled

| Model file | Code | Left out |
|------------|------|----------|
| M_Tlv, M_Block, M_Encoder | `encoding/tlv.hpp`, `block`, `encoder`, `estimator`, `encoding-buffer`, `block-helpers` | stream output, `readVarNumber` on iterators other than pointers (same algorithm), sharing of buffers between Blocks |
| M_Str, M_Name | `util/string-helper`, `name-component`, `name` | `Name::Component` literals, hashing |
| M_Packet | `data`, `meta-info`, `key-locator`, `signature-info` | tags, stream output, what a failed decode leaves in KeyLocator |
| M_Interest | `interest`, `KeyChain::sign(Interest)` order of steps | generation of random nonces (an argument) |
| M_Lp | `lp/packet`, `lp/fields`, `lp/nack-header`, `lp/cache-policy`, `lp/pit-token` | `lp/geo-tag` and unknown extension fields of later versions |
| M_Ims | `ims/*` | statistics, random replacement |
| M_Scheduler | `util/scheduler` | running the event loop from inside a callback |
| M_Face | `face`, `impl/face-impl`, pending Interests, filters | prefix registration, tags (see M_LpTags), pausing of the transport |
| M_Transport | `transport/detail/stream-transport-impl` and wrappers | name resolution, second `connect()` |
| M_Segmenter, M_Fetcher, M_Rtt | `util/segmenter`, `segment-fetcher`, `rtt-estimator` | RTT statistics, byte counters |
| M_Validator | `security/validator`, `validation-state`, `certificate-fetcher*`, `certificate-storage` | policies that answer twice or later; callbacks that call the validator again at once; overflow of the waiting time after 40 Nacks |
| M_IntPolicy, M_Signer | `validation-policy-{command,signed}-interest`, `interest-signer` | logging |
| M_Validity, M_CertCache, M_Anchors | `validity-period`, `certificate-cache`, `trust-anchor-*` | reading of files (a file system is a function from paths to certificates) |
| M_Transform | `security/transform`: hex, strip-space, sources, base classes | modules that wrap OpenSSL |
| M_Signal | `util/signal/*` | - |
| M_Regex | `util/regex/*` | stack size is a parameter; exceeding it is the error `EFuel` |
| M_Control, M_StatusDataset | `mgmt/nfd/control-parameters`, `control-command`, `mgmt/status-dataset-context`, data sending of `mgmt/dispatcher` | printing |
| M_Dispatcher | `mgmt/dispatcher`, the interest filters of `Face` | registration with the forwarder, contents of the Data |
| M_NfdData | `mgmt/nfd/{channel-status,strategy-choice,cs-info,face-event-notification,face-query-filter,face-status,fib-entry,rib-entry,forwarder-status}`, `face-traits`, `mgmt/nfd/status-dataset` (parsing), `mgmt/control-response` | printing, dataset names, state after an exception; strings as octets; the classes share one codec driven by a table of fields |
| M_NotifSub | `util/notification-subscriber`, with the part of Face it uses (posted functions, pending Interests) | time, payloads, several handlers of one signal, shutdown of the face, prefixes that end with a digest; rounding of delays above 2^53 ms |
| M_Special | `link`, `metadata-object`, `prefix-announcement`; for removal through a reference into the list, the loop of libstdc++'s `std::remove` | printing; signing is a SignatureInfo and an operation, or a failure before the packet is touched |
| M_Controller | `mgmt/nfd/controller` (commands, datasets, destruction); undefined behaviour after destruction is an outcome | the texts of failures made by the Controller; building and signing requests is C60 and C53; the Face, Validator and SegmentFetcher are events, with the guarantees of C38, C49 and C46; calls on a destroyed Controller by its owner |
| M_SecMisc | `security/safe-bag`, `security/additional-description`, the text form in `security/signing-info` | objects left behind by a decoder that throws; the non-const iterators of AdditionalDescription; SafeBag's own cached wire (only written); base64 and key loading of `hmac-sha256:` (a function argument); the other members of SigningInfo |
| M_Bundle | `security/detail/certificate-bundle-decoder`, `security/certificate-bundle-fetcher`, the checks of the Certificate constructor | handlers of onCertDecoded that throw or call append again; lifetimes of Interests and of cached certificates (the cache is a list and its lookup an argument); the inner fetcher (an outcome) |
| M_Logging | `util/logging` (levels and names), `util/logger` | destinations, formatting and flushing; the environment variable `NDN_LOG` (a config string); destruction of Loggers; the functions that only exist in test builds |
| M_FaceUri | `net/face-uri` (parse, print, ==, constructors), text of `net/ethernet` addresses | the regular expressions are modelled by what they match, not by the engine of std::regex; C locale |
| M_Canonize | `net/face-uri` (canCanonize, isCanonical, canonize) | make_address, address texts, sscanf and the resolver are parameters; the resolver is taken to answer once (C99 says when it does); assertions are not executed, theorems say when they hold |
| M_Dns | `net/dns` | the cancellation of asio resolvers is taken as documented; life time of the Resolver object |
| M_NetIf | `net/network-interface` (addNetworkAddress, removeNetworkAddress, setState, setMtu) | the order of the address set; handlers that call back into the interface; printing; the network monitors that make the calls |
| M_Indent | `util/indented-stream` | stream error states and formatting flags of the stream below |
| M_LpTags | `impl/lp-field-tag`, the making of link packets in `impl/face-impl`, `Face::onReceiveElement` | decoding of the Interest or Data inside (M_Interest, M_Packet); a tag is the value it holds |
| M_Scoped | `detail/cancel-handle` | copies of plain handles kept beside a scoped one; cancel functions that throw or use the handles |
| M_Pib | `security/pib/*` with `PibMemory` | `PibSqlite3`, TPM locator, key type |
| M_KeyChain | `security/key-chain`, `tpm/tpm`, `tpm/back-end`, `tpm/impl/back-end-mem` | opening and matching of PIB and TPM locators, passwords, `SafeBag` encoding, `makeCertificate` options, file and OS X back ends |
| M_VConfig | `security/validation-policy-config`, `security/validator-config/*`, `security/validation-policy-simple-hierarchy`, `extractIdentityNameFromKeyLocator` | `boost::property_tree::read_info`, file paths, error messages, `SignedInterestFormatTag` (the packet says its format) |

Not modelled at all: SQLite and file back ends, OpenSSL wrappers, `net/*` except `net/face-uri`, `net/dns` and the mutable part of `net/network-interface`, output of log messages, command line tools.

### Tests of the theorems

`seeded/LOG.jsonl` records edits of the model that stand for realistic bugs, one line
each.  `first_failing` is the first lemma whose proof no longer goes through;
`theorems_failed` are the theorems that depend on that lemma.  An edit that no theorem
noticed led to a stronger theorem (`theorems_tightened`) or is explained in `note`.
