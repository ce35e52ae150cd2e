{"id": "C01", "title": "TLV VAR-NUMBER round trip", "statement": "Encoding any 64-bit number as a TLV VAR-NUMBER and reading it back yields the same number, consumes exactly the bytes written, leaves whatever follows untouched, and uses the announced size (1, 3, 5 or 9 octets, the shortest possible).", "quantifier": "all n < 2^64 and all trailing byte strings", "why_tests_cant": "2^64 values times all suffixes; tests sample the boundaries", "anchors": ["ndn-cxx/encoding/tlv.hpp: sizeOfVarNumber, readVarNumber, writeVarNumber", "ndn-cxx/encoding/encoder.cpp: Encoder::prependVarNumber, appendVarNumber"]}
{"id": "C02", "title": "TLV readers are total and stay in bounds", "statement": "On every byte string, reading a VAR-NUMBER or a TLV-TYPE either throws or returns a value that fits (type in 1..2^32-1), consuming a non-empty prefix of the input and nothing past its end; a strict prefix of an encoded number is always rejected.", "quantifier": "all byte strings", "why_tests_cant": "the input space is unbounded attacker-controlled data", "anchors": ["ndn-cxx/encoding/tlv.hpp: readVarNumber, readType, detail::ReadNumberSlow/Fast"]}
{"id": "C03", "title": "NonNegativeInteger round trip and strictness", "statement": "A NonNegativeInteger of any 64-bit value is written in 1, 2, 4 or 8 octets (the shortest) and reads back to itself; reading accepts exactly the lengths 1, 2, 4 and 8 and rejects every other length.", "quantifier": "all n < 2^64; all value lengths and all byte strings", "why_tests_cant": "unbounded lengths and 2^64 values", "anchors": ["ndn-cxx/encoding/tlv.hpp: sizeOfNonNegativeInteger, readNonNegativeInteger", "ndn-cxx/encoding/encoder.cpp: prependNonNegativeInteger", "ndn-cxx/encoding/block-helpers.cpp: readNonNegativeInteger, makeNonNegativeIntegerBlock"]}
{"id": "C04", "title": "TLV block framing from a buffer", "statement": "Block::fromBuffer on (an encoded block followed by anything) returns exactly that block with its type, value and total size; on every strict prefix of an encoded block it reports failure; so a concatenation of blocks can be split in only one way.", "quantifier": "all types, all values, all suffixes, all truncation points", "why_tests_cant": "every truncation point of every block with every suffix", "anchors": ["ndn-cxx/encoding/block.cpp: Block::fromBuffer, Block(span)"]}
{"id": "C05", "title": "Block parse and encode are inverse", "statement": "Parsing a block's value succeeds exactly when the value is a concatenation of complete TLV elements, and then the elements' wires concatenate back to the value; encoding a tree of elements and parsing it again gives the same elements, at any nesting depth.", "quantifier": "all byte strings; all finite trees of elements", "why_tests_cant": "unbounded depth, width and contents", "anchors": ["ndn-cxx/encoding/block.cpp: Block::parse, Block::encode, push_back, elements"]}
{"id": "C06", "title": "A failed Block::parse leaves no partial result behind", "statement": "If Block::parse throws because the value is malformed, every later parse() of the same block throws too (it never silently yields a truncated element list).", "quantifier": "all malformed values and all numbers of repeated parse() calls", "why_tests_cant": "needs the history of calls on one object", "anchors": ["ndn-cxx/encoding/block.cpp: Block::parse"]}
{"id": "C07", "title": "Encoder buffer never loses or reorders octets", "statement": "After any sequence of prepend and append operations on an EncodingBuffer, whatever initial capacity and reserve were chosen and however often the buffer had to grow, the contents are exactly the prepended pieces (last first) followed by the appended pieces (in order).", "quantifier": "all operation sequences, all initial sizes", "why_tests_cant": "reallocation happens at arbitrary points of arbitrary sequences", "anchors": ["ndn-cxx/encoding/encoder.cpp: Encoder::reserveFront, reserveBack, reserve", "ndn-cxx/encoding/encoder.hpp: prependRange, appendRange"]}
{"id": "C08", "title": "Estimator agrees with encoder", "statement": "For every sequence of encoding operations, the size computed by EncodingEstimator equals the number of octets EncodingBuffer produces.", "quantifier": "all operation sequences and arguments", "why_tests_cant": "must agree for every argument, otherwise buffers are mis-sized", "anchors": ["ndn-cxx/encoding/estimator.hpp, estimator.cpp", "ndn-cxx/encoding/encoder.cpp"]}
{"id": "C09", "title": "Name wire round trip", "statement": "Decoding the wire encoding of any Name yields an equal Name; and a decoded Name re-encodes to the very wire it was decoded from.", "quantifier": "all names (any number of components, any types and values)", "why_tests_cant": "unbounded names", "anchors": ["ndn-cxx/name.cpp: Name::wireEncode, wireDecode", "ndn-cxx/name-component.cpp: Component::wireEncode, wireDecode"]}
{"id": "C10", "title": "Name URI round trip", "statement": "Printing a Name in canonical URI form and parsing the URI gives back an equal Name; the alternate form round-trips too whenever numeric components use the shortest integer encoding.", "quantifier": "all names whose components are valid", "why_tests_cant": "unbounded names over all octet values; escaping corner cases (all-period components, percent signs, typed components)", "anchors": ["ndn-cxx/name.cpp: Name(std::string_view), Name::toUri", "ndn-cxx/name-component.cpp: fromUri, toUri, parseUriEscapedValue", "ndn-cxx/util/string-helper.cpp: escape, unescape", "ndn-cxx/impl/name-component-types.hpp"]}
{"id": "C11", "title": "Percent-encoding is a lossless code", "statement": "unescape(escape(s)) = s for every octet string, and escape's output only contains unreserved characters and well-formed %XX triples.", "quantifier": "all octet strings", "why_tests_cant": "unbounded strings", "anchors": ["ndn-cxx/util/string-helper.cpp: escape, unescape, fromHexChar, toHexChar"]}
{"id": "C12", "title": "Names are totally ordered in canonical order", "statement": "Name::compare is a total order (antisymmetric, transitive, total) that agrees with == , orders component by component (type, then length, then octets) with a proper prefix before its extensions, and keeps all names under a prefix contiguous.", "quantifier": "all pairs and triples of names", "why_tests_cant": "order laws quantify over triples of unbounded objects", "anchors": ["ndn-cxx/name.cpp: Name::compare, operator<, equals", "ndn-cxx/name-component.cpp: Component::compare, equals"]}
{"id": "C13", "title": "Component and name successors", "statement": "Component::getSuccessor returns the least component greater than the argument; Name::getSuccessor(P) is greater than every name under a non-empty prefix P (for the empty name it is the least non-empty name), and every name greater than P and not under P is at least the successor.", "quantifier": "all components and names", "why_tests_cant": "least-upper-bound claims quantify over all other names", "anchors": ["ndn-cxx/name-component.cpp: Component::getSuccessor", "ndn-cxx/name.cpp: Name::getSuccessor", "ndn-cxx/impl/name-component-types.hpp: getSuccessor"]}
{"id": "C14", "title": "Numeric name components round trip", "statement": "A component built from a number with any naming convention (segment, byte offset, version, timestamp, sequence number; typed or marker) is recognised as that kind and yields the number back; the kinds are mutually exclusive under the typed convention.", "quantifier": "all n < 2^64, all conventions", "why_tests_cant": "2^64 values", "anchors": ["ndn-cxx/name-component.cpp: fromNumber, toNumber, fromSegment, isSegment, toSegment, ...", "ndn-cxx/name.cpp: appendSegment, appendVersion, ..."]}
{"id": "C15", "title": "Prefix and sub-name laws", "statement": "isPrefixOf(A,B) holds exactly when B is A followed by some components; getPrefix and getSubName (including negative indices and counts) return the documented slices and never read out of range; append concatenates.", "quantifier": "all names and all integer indices/counts", "why_tests_cant": "indices range over all signed values", "anchors": ["ndn-cxx/name.cpp: isPrefixOf, getSubName, at, append, equals, getPrefix"]}
{"id": "C16", "title": "Interest wire round trip", "statement": "Decoding the wire encoding of any encodable Interest succeeds and yields an Interest with the same name, selectors, forwarding hint, nonce, lifetime, hop limit and application parameters.", "quantifier": "all Interests reachable through the public setters", "why_tests_cant": "unbounded field contents and combinations", "anchors": ["ndn-cxx/interest.cpp: Interest::wireEncode, wireDecode"]}
{"id": "C17", "title": "Interest decoding is order-strict and evolvable", "statement": "A recognised critical element out of order or repeated, or an unrecognised critical element, makes decoding fail; inserting any unrecognised non-critical element between the recognised ones changes no decoded field (after ApplicationParameters such an element is itself one of the parameters).", "quantifier": "all Interests, all insertion positions, all unrecognised types", "why_tests_cant": "any position x any type x any Interest", "anchors": ["ndn-cxx/interest.cpp: Interest::wireDecode", "ndn-cxx/encoding/tlv.hpp: isCriticalType"]}
{"id": "C18", "title": "Parameters digest invariant", "statement": "After any sequence of Interest setters, an Interest with application parameters has exactly one parameters-digest component in its name, equal to SHA-256 over the parameter elements, and an Interest without parameters is never encoded with one; decoding with digest checking enabled accepts an Interest only if that holds.", "quantifier": "all histories of setter calls; all wires", "why_tests_cant": "an invariant over arbitrary call histories", "anchors": ["ndn-cxx/interest.cpp: setName, setApplicationParameters, unsetApplicationParameters, setSignatureInfo, setSignatureValue, isParametersDigestValid, addOrReplaceParametersDigestComponent, computeParametersDigest"]}
{"id": "C19", "title": "Interest/Data and Interest/Interest matching", "statement": "matchesData answers true exactly when the Data's name equals the Interest's name, or (CanBePrefix) has it as prefix, or the Interest name is the Data's full name including implicit digest. matchesInterest answers true exactly when both Interests have the same name, CanBePrefix and MustBeFresh.", "quantifier": "all Interests and Data", "why_tests_cant": "unbounded pairs; the implementation uses a case analysis on name lengths", "anchors": ["ndn-cxx/interest.cpp: Interest::matchesData", "ndn-cxx/data.cpp: Data::getFullName"]}
{"id": "C20", "title": "Data wire round trip", "statement": "Decoding the wire encoding of any signed Data yields a Data with equal name, meta info, content, signature info and signature value, and re-encoding gives the same octets.", "quantifier": "all Data packets", "why_tests_cant": "unbounded contents", "anchors": ["ndn-cxx/data.cpp: Data::wireEncode, wireDecode"]}
{"id": "C21", "title": "Data decoding is order-strict and evolvable", "statement": "Data decoding fails on missing Name/SignatureInfo/SignatureValue, on repeated or out-of-order recognised elements, and on unrecognised critical elements; an unrecognised non-critical element anywhere after the Name changes no decoded field.", "quantifier": "all element sequences", "why_tests_cant": "any position x any type x any Data", "anchors": ["ndn-cxx/data.cpp: Data::wireDecode"]}
{"id": "C22", "title": "What a Data signature covers", "statement": "The octets handed to the signer, the octets extracted for verification after decoding, and the concatenation Name, MetaInfo, Content, SignatureInfo as encoded are the same; two Data with equal signed octets have equal name, meta info, content and signature info.", "quantifier": "all Data packets; all pairs", "why_tests_cant": "injectivity quantifies over pairs of unbounded packets", "anchors": ["ndn-cxx/data.cpp: Data::extractSignedRanges, wireEncode(encoder, unsigned), wireEncode(encoder, signature)"]}
{"id": "C23", "title": "Cached wires are never stale", "statement": "After any sequence of setters, getters and encodings on a Data (and its MetaInfo and SignatureInfo), wireEncode returns the encoding of the current field values and getFullName is the current name plus the SHA-256 of the current wire.", "quantifier": "all histories of API calls", "why_tests_cant": "cache invalidation must hold for every interleaving of setters, getters and encoders", "anchors": ["ndn-cxx/data.cpp: resetWire, setName, setMetaInfo, ..., getFullName", "ndn-cxx/meta-info.cpp", "ndn-cxx/signature-info.cpp"]}
{"id": "C24", "title": "MetaInfo, KeyLocator and SignatureInfo round trips", "statement": "Each of MetaInfo, KeyLocator and SignatureInfo decodes back from its encoding to equal fields (including custom elements).", "quantifier": "all field values", "why_tests_cant": "unbounded names, digests and custom elements", "anchors": ["ndn-cxx/meta-info.cpp: wireEncode, wireDecode", "ndn-cxx/key-locator.cpp: wireEncode, wireDecode", "ndn-cxx/signature-info.cpp: wireEncode, wireDecode"]}
{"id": "C25", "title": "What an Interest signature covers", "statement": "For a signed Interest the extracted signed ranges are the name components up to the parameters digest plus the parameters up to the signature value, identical before and after the wire, and are what was signed; extraction throws unless the last name component is a parameters digest and the signature information is present.", "quantifier": "all signed Interests", "why_tests_cant": "unbounded contents", "anchors": ["ndn-cxx/interest.cpp: extractSignedRanges"]}
{"id": "C26", "title": "LpPacket field order and round trip", "statement": "After any sequence of add/set/remove/clear/decode/encode, the header fields are in the required order, non-repeatable fields occur at most once, and decoding the packet's encoding gives the same fields; a packet whose only field is a fragment encodes as the bare element in it, which decodes to the same packet if the fragment holds exactly one Interest or Data.", "quantifier": "all histories of field operations; all field values", "why_tests_cant": "insertion position depends on the whole history", "anchors": ["ndn-cxx/lp/packet.hpp: add, set, remove, clear", "ndn-cxx/lp/packet.cpp: wireEncode, wireDecode, comparePos"]}
{"id": "C27", "title": "LpPacket field operations behave like a map", "statement": "set(F,v) then get(F) returns v for every value v that is well-formed for F (non-empty range, known cache policy, non-negative Nack reason), and leaves other fields untouched; add appends to repeatable fields in order and throws on an existing non-repeatable field; remove and clear delete exactly what they name.", "quantifier": "all histories and fields", "why_tests_cant": "frame conditions over arbitrary packets", "anchors": ["ndn-cxx/lp/packet.hpp: has, count, get, list, set, add, remove, clear"]}
{"id": "C28", "title": "LpPacket decoding forward compatibility", "statement": "Decoding ignores exactly the unrecognised fields in the ignorable range, rejects every other unrecognised field, out-of-order fields and repeated non-repeatable fields; a bare Interest or Data is treated as a packet whose only field is the fragment.", "quantifier": "all element sequences", "why_tests_cant": "unbounded sequences of elements", "anchors": ["ndn-cxx/lp/packet.cpp: wireDecode"]}
{"id": "C29", "title": "Nack, CachePolicy and PitToken codecs", "statement": "NackHeader, CachePolicy and PitToken decode back from their encodings; unknown Nack reasons read as None; severity comparison is a strict weak order in which None is the most severe.", "quantifier": "all reasons/policies/tokens (1..32 octets)", "why_tests_cant": "all 64-bit reason values, all token contents", "anchors": ["ndn-cxx/lp/nack-header.cpp", "ndn-cxx/lp/cache-policy.cpp", "ndn-cxx/lp/pit-token.cpp"]}
{"id": "C30", "title": "In-memory storage respects its limit", "statement": "After any sequence of insert, find and erase calls and expirations of freshness, the storage never holds more packets than its limit, never exceeds its capacity, and every insertion into a full storage evicts one packet rather than failing.", "quantifier": "all histories of calls, all limits", "why_tests_cant": "an invariant over arbitrary histories including evictions", "anchors": ["ndn-cxx/ims/in-memory-storage.cpp: insert, erase, eraseImpl, setCapacity, freeEntry, evictItem"]}
{"id": "C31", "title": "In-memory storage lookup by Interest", "statement": "find(Interest) returns a stored packet iff some stored packet matches the Interest (being fresh if MustBeFresh), and then it is the leftmost such packet in canonical full-name order; lookup by exact full name returns that packet.", "quantifier": "all reachable storage states and all Interests", "why_tests_cant": "arbitrary contents in arbitrary insertion order", "anchors": ["ndn-cxx/ims/in-memory-storage.cpp: find(const Interest&), selectChild, findNextFresh"]}
{"id": "C32", "title": "In-memory storage lookup by Name", "statement": "find(Name) returns the leftmost stored packet under the given prefix and nothing if there is none.", "quantifier": "all reachable storage states and all names", "why_tests_cant": "arbitrary contents", "anchors": ["ndn-cxx/ims/in-memory-storage.cpp: find(const Name&)"]}
{"id": "C33", "title": "In-memory storage erase", "statement": "erase(prefix) removes every stored packet under the prefix and no other; erase(name, false) removes exactly the packet with that full name.", "quantifier": "all reachable storage states and all names", "why_tests_cant": "arbitrary contents", "anchors": ["ndn-cxx/ims/in-memory-storage.cpp: erase"]}
{"id": "C34", "title": "In-memory storage eviction policies", "statement": "When a full storage must evict, the FIFO policy evicts the packet inserted earliest, LRU the one least recently inserted or returned by a lookup, and LFU one with the fewest accesses.", "quantifier": "all histories of insertions, lookups and erasures", "why_tests_cant": "the victim depends on the whole history", "anchors": ["ndn-cxx/ims/in-memory-storage-fifo.cpp", "ndn-cxx/ims/in-memory-storage-lru.cpp", "ndn-cxx/ims/in-memory-storage-lfu.cpp"]}
{"id": "C35", "title": "Scheduler runs each event at most once, never early, in order", "statement": "Each scheduled callback runs at most once, never before its expiry time, and due callbacks run in order of expiry with ties in scheduling order.", "quantifier": "all histories of schedule/cancel/clock advance/timer wake-ups, including calls made from inside callbacks", "why_tests_cant": "arbitrary interleavings and re-entrancy", "anchors": ["ndn-cxx/util/scheduler.cpp: schedule, executeEvent, scheduleNext", "ndn-cxx/util/scheduler.hpp"]}
{"id": "C36", "title": "Cancelled scheduler events never run", "statement": "Once an event is cancelled (through its EventId, a scoped handle or cancelAllEvents) its callback never runs afterwards; cancelling an expired, already cancelled or empty EventId has no effect on other events; releasing a scoped handle cancels nothing.", "quantifier": "all histories, including cancels from inside callbacks", "why_tests_cant": "arbitrary interleavings", "anchors": ["ndn-cxx/util/scheduler.cpp: cancelImpl, cancelAllEvents", "ndn-cxx/detail/cancel-handle.hpp"]}
{"id": "C37", "title": "Scheduler never forgets a pending event", "statement": "Whenever events are pending and no callback is executing, the timer is armed for a time not later than the earliest pending expiry, even after callbacks threw exceptions.", "quantifier": "all histories", "why_tests_cant": "liveness invariant over arbitrary histories", "anchors": ["ndn-cxx/util/scheduler.cpp: scheduleNext, executeEvent"]}
{"id": "C38", "title": "Face: each expressed Interest gets at most one answer", "statement": "For each expressed Interest at most one of its data, nack and timeout callbacks runs, at most once, and none after the pending Interest was removed (the removal requested through its handle or removeAllPendingInterests takes effect when the io_context runs it). The face is run by processEvents, which shuts it down when a callback throws.", "quantifier": "all histories of express/remove/incoming packets/timeouts/puts", "why_tests_cant": "arbitrary interleavings of packets, timers and API calls", "anchors": ["ndn-cxx/impl/face-impl.hpp: expressInterest, satisfyPendingInterests, nackPendingInterests, removePendingInterest", "ndn-cxx/impl/pending-interest.hpp"]}
{"id": "C39", "title": "Face: Data reaches exactly the matching pending Interests", "statement": "An incoming or locally put Data invokes the data callback of exactly the pending application Interests it matches, once each, and leaves the others pending; a locally put Data is sent to the forwarder iff a forwarder-origin Interest matched or no application Interest matched. No callback throws and the Data is not oversized.", "quantifier": "all pending tables and all Data", "why_tests_cant": "arbitrary tables", "anchors": ["ndn-cxx/impl/face-impl.hpp: satisfyPendingInterests, putData"]}
{"id": "C40", "title": "Face: Nacks are reported once all destinations nacked, with the least severe reason", "statement": "A pending application Interest gets its nack callback exactly when every destination it was sent to has returned a Nack for it, and the reported reason is the least severe one received.", "quantifier": "all sequences of Nacks and destinations", "why_tests_cant": "depends on the sequence of Nacks", "anchors": ["ndn-cxx/impl/pending-interest.hpp: recordForwarding, recordNack", "ndn-cxx/impl/face-impl.hpp: nackPendingInterests"]}
{"id": "C41", "title": "Face: Interests are dispatched to exactly the matching filters", "statement": "An incoming Interest invokes exactly the filters whose prefix and regular expression match it; an application's own Interest only reaches filters that allow loopback.", "quantifier": "all filter tables and Interests", "why_tests_cant": "arbitrary tables", "anchors": ["ndn-cxx/impl/face-impl.hpp: dispatchInterest, processIncomingInterest", "ndn-cxx/impl/interest-filter-record.hpp", "ndn-cxx/interest-filter.cpp: doesMatch"]}
{"id": "C42", "title": "Stream transport delivers packets independent of chunking", "statement": "However the byte stream of a sequence of TLV packets (each at most the maximum packet size) is cut into reads, and however the reads interleave with sends and write completions, the receive callback sees exactly those packets in order, as long as the transport is not paused or closed meanwhile, the socket reports no error and the callback does not throw. While the transport runs, a receive operation with room in the buffer is always outstanding.", "quantifier": "all packet sequences and all ways to split the stream into non-empty reads that fit the buffer", "why_tests_cant": "exponentially many chunkings", "anchors": ["ndn-cxx/transport/detail/stream-transport-impl.hpp: asyncReceive"]}
{"id": "C43", "title": "Stream transport sends packets whole and in order", "statement": "For any interleaving of sends, connection establishment, reads, write completions, pause, resume and close, the octets written to the socket are a prefix of the concatenation of the sent packets in the order of send(), with at most one write outstanding; and once connected, everything sent is eventually written as long as the socket accepts octets.", "quantifier": "all interleavings", "why_tests_cant": "schedule-dependent", "anchors": ["ndn-cxx/transport/detail/stream-transport-impl.hpp: send, asyncWrite, connectHandler"]}
{"id": "C44", "title": "Segmenter covers the input exactly", "statement": "Segmenting an object of any size yields 1 + ceil-style many segments with consecutive segment numbers from 0, each content at most the maximum, all but the last full, whose contents concatenate to the input, and every segment carries the final block id of the last one; the stream and buffer overloads agree.", "quantifier": "all inputs and all maximum segment sizes > 0", "why_tests_cant": "unbounded sizes", "anchors": ["ndn-cxx/util/segmenter.cpp: segment"]}
{"id": "C45", "title": "SegmentFetcher delivers exactly the object", "statement": "If SegmentFetcher completes, the buffer it delivers is the concatenation, in segment order from 0 to the final segment, of the contents of validated Data segments; combined with Segmenter the fetched object equals the published one.", "quantifier": "all histories of Data, Nacks, timeouts and validation results, in any order", "why_tests_cant": "arbitrary arrival orders, losses and retransmissions", "anchors": ["ndn-cxx/util/segment-fetcher.cpp: afterSegmentReceivedCb, afterValidationSuccess, finalizeFetch, checkAllSegmentsReceived"]}
{"id": "C46", "title": "SegmentFetcher signals once", "statement": "A fetch emits at most one of onComplete and onError, at most once, and nothing after stop().", "quantifier": "all histories of events", "why_tests_cant": "arbitrary interleavings", "anchors": ["ndn-cxx/util/segment-fetcher.cpp: stop, shouldStop, signalError, finalizeFetch"]}
{"id": "C47", "title": "SegmentFetcher bookkeeping stays consistent", "statement": "The number of segments in flight never underflows and no internal assertion fires, whatever the order of Data, Nacks, timeouts and validation results.", "quantifier": "all histories of events", "why_tests_cant": "arbitrary interleavings", "anchors": ["ndn-cxx/util/segment-fetcher.cpp: m_nSegmentsInFlight, fetchSegmentsInWindow, afterNackOrTimeout, cancelExcessInFlightSegments"]}
{"id": "C48", "title": "RTT estimator stays within its bounds", "statement": "After the first measurement or back-off the estimated RTO always lies between the configured minimum and maximum; the recorded minimum and maximum are the least and greatest sample, the average lies between them and within (n-1)/2 nanoseconds of the mean of n samples; for samples up to 2^50 ns (13 days) no arithmetic overflows and the smoothed RTT and RTT variation stay between 0 and the largest sample.", "quantifier": "all sequences of measurements and back-offs", "why_tests_cant": "arbitrary sequences", "anchors": ["ndn-cxx/util/rtt-estimator.cpp: RttEstimator, addMeasurement, backoffRto"]}
{"id": "C49", "title": "Validation ends in exactly one verdict", "statement": "Every validation calls exactly one of the success and failure callbacks exactly once (also when the validator goes away), after which nothing more happens for it; while it has not, it waits for the reply to an Interest or the end of a delay, and goes on when that happens. With depth limit d and at most r retries per certificate it expresses at most d(r+1) Interests on each of the two ways (infrastructure, incoming face) and waits at most d*r times.", "quantifier": "all policies, certificate graphs and fetch outcomes", "why_tests_cant": "arbitrary certificate graphs, including cycles", "anchors": ["ndn-cxx/security/validator.cpp: requestCertificate, continueValidation", "ndn-cxx/security/validation-state.cpp"]}
{"id": "C50", "title": "Validation success means a verified chain of trust", "statement": "If validation of a packet succeeds without the policy explicitly bypassing it, there is a chain of certificates from a trust anchor (or a previously verified, unexpired certificate) to the packet in which every signature verifies under the previous certificate's key, every link was approved by the policy, and every fetched certificate was within its validity period when it was examined; or the packet has a correct digest signature and the policy asked for the name reserved for those.", "quantifier": "all policies, certificate stores and fetch outcomes", "why_tests_cant": "arbitrary chains and stores", "anchors": ["ndn-cxx/security/validator.cpp", "ndn-cxx/security/validation-state.cpp: verifyCertificateChain, verifyOriginalPacket"]}
{"id": "C51", "title": "Signed-Interest replay protection", "statement": "Under the signed-Interest policy, a v0.3 signed Interest is let through only if it names a key and has every field whose check is enabled, with its timestamp, if checked, within the grace period. After an Interest of a key has been accepted, an Interest of that key passes only with a greater timestamp (if checked) and a greater sequence number (if checked), while its record is kept and Interests of that key are validated one by one; nonces (if checked) do not repeat within the window of maxNonceRecords Interests. The record is kept while fewer than maxRecords other keys have had Interests accepted, if the steady clock had advanced when the Interest was accepted. An Interest with fresh values is always let through. The tables stay within their limits. Refuted: overlapping validations allow a replay; v0.2 signed Interests are not checked at all; with equal clock readings the record just refreshed may be evicted first; a malformed SignatureSeqNum or SignatureTime makes an exception leave validate; a timestamp beyond 2262 overflows.", "quantifier": "all options, all sequences of checks, successes and failures of validations (overlapping or not) and clock readings", "why_tests_cant": "history-dependent", "anchors": ["ndn-cxx/security/validation-policy-signed-interest.cpp"]}
{"id": "C52", "title": "Command-Interest timestamp policy", "statement": "Under the command-Interest policy a command passes only if it names a key, has a timestamp within the grace period of the clock and, while the key's record is kept, the timestamp is greater than that of the last accepted command of the key, provided commands of that key are validated one at a time; with record lifetimes over twice the grace period no command is accepted twice. A command within the grace period and later than all accepted ones passes. A check leaves at most the configured number of records, one per key, none older than the lifetime. (Refuted parts: overlapping validations can accept a command twice or move the record back; the grace period does not only apply to the first command of a key; a malformed SignatureTime makes an exception escape.)", "quantifier": "all sequences of Interests and clock readings", "why_tests_cant": "history-dependent", "anchors": ["ndn-cxx/security/validation-policy-command-interest.cpp", "ndn-cxx/security/validation-policy.cpp: getSignatureInfo, getKeyLocatorName", "ndn-cxx/signature-info.cpp: getTime"]}
{"id": "C53", "title": "Signed Interests carry strictly increasing timestamps", "statement": "Timestamps produced by one InterestSigner strictly increase in whole milliseconds, over signed and command Interests alike, even if the clock stalls or goes backwards, and never lag behind the clock; each is the clock or one more than the previous timestamp, whichever is larger. Requested sequence numbers count from 0. Elements not requested are left as the caller gave them; requesting none is rejected.", "quantifier": "all sequences of requests and clock readings", "why_tests_cant": "arbitrary clock histories", "anchors": ["ndn-cxx/security/interest-signer.cpp: getFreshTimestamp"]}
{"id": "C54", "title": "Certificate validity periods", "statement": "A validity period covers exactly the instants between its (whole-second) NotBefore and NotAfter inclusive; a period a user sets is never widened by rounding and loses less than a second at each end, provided its rounded ends are still time points; the default period is never valid; it is written as ISO 8601 texts of the proleptic Gregorian calendar, texts compare like instants, dates beyond the range of the clock are read as its ends, and over any history of setting, encoding and (successful) decoding what is encoded decodes to the current period.", "quantifier": "all instants, all octet strings, all histories of one object", "why_tests_cant": "all time points", "anchors": ["ndn-cxx/security/validity-period.cpp"]}
{"id": "C55", "title": "Certificate cache expiry", "statement": "A lookup in the certificate cache returns, by name prefix or by Interest, the first certificate in canonical name order among those held that match; a certificate is never returned after the earlier of its NotAfter and its insertion time plus the maximum cache lifetime, nor after clear(); and until then, if no certificate of its name was held when it was inserted, it is found by its name and by every prefix of its name. Exceptions shown by witnesses: inserting a certificate again does not prolong its stay, an expired certificate that no lookup has discarded yet keeps a new one of the same name out, and Interests with an implicit digest find nothing.", "quantifier": "all histories of insertions, clears, lookups and clock readings (also a clock that goes back), all certificates and names", "why_tests_cant": "history-dependent", "anchors": ["ndn-cxx/security/certificate-cache.cpp"]}
{"id": "C56", "title": "Hex transform is chunk-independent and lossless", "statement": "Hex-encoding and then hex-decoding any octets gives them back, and the result does not depend on how the input is cut into write() calls; odd-length or non-hex input is reported as an error.", "quantifier": "all octet strings and all chunkings", "why_tests_cant": "exponentially many chunkings", "anchors": ["ndn-cxx/security/transform/hex-encode.cpp", "ndn-cxx/security/transform/hex-decode.cpp", "ndn-cxx/security/transform/transform-base.cpp"]}
{"id": "C57", "title": "Signals call exactly the connected handlers", "statement": "Emitting a signal calls each handler connected when the emission starts, once, in connection order; handlers connected during an emission are not called by it; a handler whose connection is no longer connected (disconnected from outside or from its own body, or single-shot and called) is never called again; a Connection reports connected exactly while its handler will be called; handlers that only connect new handlers and disconnect themselves never make an emission fail. A handler's exception passes through the emission, the handlers after it are not called and stay connected, and the signal remains usable. Exceptions to this, shown by witnesses: a handler that disconnects itself and then throws is called again although reported disconnected; a single-shot handler that throws is called again; move-assigning a ScopedConnection over another leaves the other's handler connected.", "quantifier": "all histories of connect, disconnect, emit, all behaviours of handlers (connecting, disconnecting, throwing) during emissions", "why_tests_cant": "re-entrancy and exceptions", "anchors": ["ndn-cxx/util/signal/signal.hpp", "ndn-cxx/util/signal/connection.hpp", "ndn-cxx/util/signal/connection.cpp", "ndn-cxx/util/signal/scoped-connection.hpp", "ndn-cxx/util/signal/scoped-connection.cpp"]}
{"id": "C58", "title": "Name regex matching is complete and sound", "statement": "A regular expression over names is accepted by the constructor exactly when it belongs to the grammar (components <e>, sets [<e>...] and [^<e>...], groups, quantifiers ? + * {m} {m,} {,n} {m,n}, anchors ^ and $) and std::regex accepts its component expressions; anything else is rejected with an error, and no text has two meanings. match() accepts a name only if it belongs to the language the pattern denotes. If no sub-pattern that denotes the empty name is repeated, match() terminates with a stack deeper than the name is long and accepts exactly the language. (Otherwise this is false: matching can recurse without end, and can reject a name of the language.)", "quantifier": "all texts, all names, all earlier calls of match() on the same object, every behaviour of std::regex", "why_tests_cant": "backtracking over unbounded names and patterns", "anchors": ["ndn-cxx/util/regex/regex-top-matcher.cpp: compile, match", "ndn-cxx/util/regex/regex-pattern-list-matcher.cpp", "ndn-cxx/util/regex/regex-repeat-matcher.cpp", "ndn-cxx/util/regex/regex-matcher.cpp: recursiveMatch", "ndn-cxx/util/regex/regex-component-set-matcher.cpp"]}
{"id": "C59", "title": "Control parameters and flag bits", "statement": "ControlParameters decode back from their encoding with exactly the fields that were set; setFlagBit/getFlagBit/hasFlagBit/unsetFlagBit affect exactly the named bit for each bit in 0..63.", "quantifier": "all parameter values, all bits", "why_tests_cant": "64-bit words and unbounded names", "anchors": ["ndn-cxx/mgmt/nfd/control-parameters.cpp"]}
{"id": "C60", "title": "Control command field validation", "statement": "A control command request is accepted exactly when it has all required fields, no forbidden field, and Flags iff Mask where both are optional.", "quantifier": "all combinations of fields", "why_tests_cant": "2^17 combinations for each command", "anchors": ["ndn-cxx/mgmt/nfd/control-command.cpp: ControlParametersCommandFormat::validate"]}
{"id": "C61", "title": "Status dataset segmentation", "statement": "As long as segments can be sent, the segments published by a status dataset context concatenate to the appended octets, are numbered consecutively from 0 under one versioned prefix extending the Interest name, fit the payload limit, exactly the last one is final, and nothing is sent after end or reject; each call answers or throws as documented.", "quantifier": "all sequences of append/end/reject calls", "why_tests_cant": "arbitrary sequences and sizes", "anchors": ["ndn-cxx/mgmt/status-dataset-context.cpp"]}
{"id": "C62", "title": "Interest signed octets are unambiguous", "statement": "Two Interests whose signed ranges consist of the same octets have the same name components before the digest and the same application parameters before the signature value: a signature on one cannot be reused for the other.", "quantifier": "all pairs of signed Interests", "why_tests_cant": "injectivity over unbounded pairs", "anchors": ["ndn-cxx/interest.cpp: extractSignedRanges, wireDecode"]}
{"id": "C63", "title": "In-memory storage iteration", "statement": "Iterating over the storage visits every stored packet exactly once, in canonical order of full names, also when the storage is empty.", "quantifier": "all histories of calls", "why_tests_cant": "order and completeness over arbitrary contents", "anchors": ["ndn-cxx/ims/in-memory-storage.cpp: begin, end, const_iterator"]}
{"id": "C64", "title": "Pausing the transport stops receiving without losing anything", "statement": "Between pause() and resume() the receive callback is not invoked; at any time at most one receive operation uses the buffer; and pausing and resuming does not lose packets.", "quantifier": "all histories of calls, socket events and handler executions", "why_tests_cant": "depends on whether a read completed just before the call", "anchors": ["ndn-cxx/transport/detail/stream-transport-impl.hpp: pause, resume, asyncReceive", "ndn-cxx/impl/face-impl.hpp: onEmptyPitOrNoRegisteredPrefixes"]}
{"id": "C65", "title": "Nothing happens after close()", "statement": "After close() the transport stays closed: the receive callback is not invoked any more, and no operation that was outstanding has any further effect.", "quantifier": "all states at the time of close() and all later events", "why_tests_cant": "depends on which completion handlers are already queued", "anchors": ["ndn-cxx/transport/detail/stream-transport-impl.hpp: close, connectHandler, asyncReceive, asyncWrite", "ndn-cxx/transport/unix-transport.cpp: close"]}
{"id": "C66", "title": "Block equality means equal octets", "statement": "Two Blocks compare equal exactly when they stand for the same TLV element, that is their shortest encodings are the same octets.", "quantifier": "all pairs of Blocks obtainable through the interface", "why_tests_cant": "unbounded set of Blocks and of ways to build them", "anchors": ["ndn-cxx/encoding/block.cpp: Block::equals"]}
{"id": "C67", "title": "Trust anchors: what is found is a loaded anchor, and a loaded anchor is found", "statement": "TrustAnchorContainer: after any sequence of insertions into static groups, insertions of dynamic groups (files or directories with a refresh period), removals and clear(), a certificate found by name or by Interest was loaded since the last clear(), and its name is in a static group from which it was not removed or was in the files of a dynamic group at a reload less than one refresh period earlier; a static anchor whose name nothing else touches is always found; and a dynamic group follows its files within one refresh period. No call has undefined behaviour.", "quantifier": "all sequences of operations, all contents of the file system at each of them, all orders of iteration over the groups, all clock readings", "why_tests_cant": "Which anchors are trusted depends on the interleaving of operations, reloads and changes of files; a test fixes one interleaving.", "anchors": ["ndn-cxx/security/trust-anchor-container.cpp: insert, find, remove, clear, refresh", "ndn-cxx/security/trust-anchor-group.cpp: StaticTrustAnchorGroup, DynamicTrustAnchorGroup::refresh"]}
{"id": "C68", "title": "Back references capture what the groups matched", "statement": "After a successful match(), there is one reading of the name as the pattern such that every back reference \\1, \\2, ... (numbered by opening parentheses) holds exactly what its group matched in that reading (the last repetition, if repeated), \\0 is the whole name, and expand() of a template of back references and literals is the concatenation of their values. (A group repeated zero times in the reading may hold anything, for instance what an earlier match captured; and a template that ends in a literal is always refused.)", "quantifier": "all expressions, names, earlier matches and templates", "why_tests_cant": "captures are updated while backtracking, so what they hold at the end depends on every abandoned attempt", "anchors": ["ndn-cxx/util/regex/regex-backref-matcher.cpp", "ndn-cxx/util/regex/regex-matcher.cpp: match, recursiveMatch", "ndn-cxx/util/regex/regex-top-matcher.cpp: expand, getItemFromExpand"]}
{"id": "C69", "title": "The expression made from a name matches that name's extensions only", "statement": "RegexTopMatcher::fromName(name, hasAnchor) always yields a matcher, which terminates and accepts exactly the names that have the given name as a prefix (or equal it, with hasAnchor), for names of valid components whose numeric components, in the alternate URI format, are encoded in the shortest form. (Without that condition a different component with the same URI is accepted.)", "quantifier": "all names, provided std::regex reads an escaped literal as that literal", "why_tests_cant": "component values are arbitrary octets, any of which might act as a special character", "anchors": ["ndn-cxx/util/regex/regex-top-matcher.cpp: fromName, convertSpecialChar"]}
{"id": "C70", "title": "The public information base answers as documented over every history of calls", "statement": "Over any history of calls on Pib, Identity and Key handles (adding, replacing and removing identities, keys and certificates, choosing and asking for defaults, listing names, resetting, and opening the same store again), every call is answered as the documentation says: a key or certificate that was stored is found until it, its key or its identity is removed; the first identity, key and certificate become the defaults and a default changes only when it is set or removed; a call about a key or certificate that belongs elsewhere is refused with the documented exception; a handle refers to its name until the entry is removed or replaced, after which it is refused; two live handles for the same name are the same.", "quantifier": "every sequence of API calls, every identity, key and certificate name and content, every handle obtained before, every point where the store is closed and opened again", "why_tests_cant": "The defaults and handles are kept in four layers of caches above the back end; whether they stay consistent depends on the order of arbitrarily many operations.", "anchors": ["ndn-cxx/security/pib/pib.cpp: Pib", "ndn-cxx/security/pib/impl/identity-impl.cpp: IdentityImpl", "ndn-cxx/security/pib/impl/key-impl.cpp: KeyImpl", "ndn-cxx/security/pib/identity-container.cpp: IdentityContainer", "ndn-cxx/security/pib/key-container.cpp: KeyContainer", "ndn-cxx/security/pib/certificate-container.cpp: CertificateContainer", "ndn-cxx/security/pib/impl/pib-memory.cpp: PibMemory"]}
{"id": "C71", "title": "The public and the private part of a key chain stay consistent", "statement": "After any history of calls on a KeyChain (creating and deleting identities and keys, adding, deleting and choosing default certificates, importing and exporting, signing, reading), every key that the PIB lists has a private key in the TPM under the same name and the public key stored for it verifies what the private key signs; every certificate stored carries the public key of its key. deleteKey and deleteIdentity remove the entries and the private keys concerned, and no others; createIdentity and createKey leave a default key and a default certificate behind; a key and certificate exported from one key chain can be imported into any other that does not have the key. A precondition on a handle that fails is the only way to fail an assertion.", "quantifier": "all histories of KeyChain calls with any arguments, valid and invalid handles, all key material, key ids, random draws and signatures, over an abstract signature scheme", "why_tests_cant": "Consistency is an invariant over unbounded histories that interleave calls on two stores, a cache of open private keys and any number of handles.", "anchors": ["ndn-cxx/security/key-chain.cpp: KeyChain::createIdentity, deleteIdentity, createKey, deleteKey, setDefaultCertificate, importSafeBag, exportSafeBag, selfSign", "ndn-cxx/security/key-chain.hpp: KeyChain (\"guarantees the consistency between TPM and PIB\")", "ndn-cxx/security/tpm/tpm.cpp: Tpm", "ndn-cxx/security/tpm/impl/back-end-mem.cpp: BackEndMem", "ndn-cxx/security/tpm/back-end.cpp: BackEnd::createKey, constructAsymmetricKeyName", "ndn-cxx/security/pib/pib.cpp: Pib"]}
{"id": "C72", "title": "A packet is signed with the key that was asked for and says so", "statement": "KeyChain::sign with any SigningInfo uses the key of the valid handle, or of the name, given (the default key for an identity, the default identity if nothing is said, the digest if there is none), sets the SignatureType that belongs to the key, sets the KeyLocator asked for or else the certificate asked for, else the default certificate of the key, else the key name, and makes a SignatureValue that verifies with the public key in the PIB and with the certificate that the KeyLocator names; it is refused with an exception if the identity, key or certificate does not exist, and changes nothing in the PIB.", "quantifier": "all histories that lead to a state of the key chain, all signing informations with valid, stale or no handles, all packets and signature randomness", "why_tests_cant": "Which key and which certificate are chosen depends on defaults, handles and caches left by an arbitrary earlier history.", "anchors": ["ndn-cxx/security/key-chain.cpp: KeyChain::sign, prepareSignatureInfo, prepareSignatureInfoWithIdentity, prepareSignatureInfoWithKey, prepareSignatureInfoHmac", "ndn-cxx/security/signing-info.cpp: SigningInfo", "ndn-cxx/security/tpm/tpm.cpp: Tpm::findKey, sign"]}
{"id": "C73", "title": "ValidatorConfig decides as its configuration says", "statement": "load() accepts exactly the configurations of the documented form whose trust anchors can be loaded, and asks the validator for those anchors, in order, after dropping the earlier ones if it is not the first load. After a successful load, and whatever packets were checked since, validation is bypassed exactly if there is a trust anchor of type any. Otherwise validation goes on only if a rule for the type of the packet applies to its name and one of its checkers allows the signature type and the KeyLocator, and the certificate then asked for is the one in the KeyLocator; and for rules without ambiguous expressions the decision is exactly that of the first rule that applies, packets that no rule applies to being rejected.", "quantifier": "all configurations as property trees, all earlier loads (successful or not) and checks, all Data and Interests of both signed formats, all KeyLocators and signature types, any std::regex that handles .* and literal strings properly", "why_tests_cant": "Configurations, names and expressions are unbounded, the policy object keeps the state of its regular expressions from packet to packet, and reloading acts on any earlier state.", "anchors": ["ndn-cxx/security/validation-policy-config.cpp: load, processConfigTrustAnchor, getRefreshPeriod, checkPolicy", "ndn-cxx/security/validator-config/rule.cpp: Rule::create, match, check", "ndn-cxx/security/validator-config/filter.cpp: Filter", "ndn-cxx/security/validator-config/checker.cpp: Checker", "ndn-cxx/security/validator-config/name-relation.cpp", "ndn-cxx/security/validation-policy.cpp: extractIdentityNameFromKeyLocator"]}
{"id": "C74", "title": "Hierarchical rules keep packets in the namespace of a trust anchor", "statement": "If a validator's configuration has only hierarchical checkers and no trust anchor of type any, a packet is found valid only if its name is in the namespace of a certificate that was a trust anchor (or that the application declared verified): below the part of that certificate's name that comes before the first component KEY. No chain of intermediate certificates, cached or fetched, can lead out of the namespace.", "quantifier": "all configurations with only hierarchical checkers, all histories of the validator and of the policy object, chains of any length, all answers of the network, all signature schemes", "why_tests_cant": "The guarantee composes a policy decision per link with chains of arbitrary length, caches filled by earlier validations and concurrent validations.", "anchors": ["ndn-cxx/security/validator-config/checker.cpp: Checker::createHierarchicalChecker, HyperRelationChecker::checkNames", "ndn-cxx/security/validation-policy-config.cpp: checkPolicy", "ndn-cxx/security/validator.cpp: Validator", "ndn-cxx/security/certificate-request.hpp: CertificateRequest"]}
{"id": "C75", "title": "ValidationPolicySimpleHierarchy keeps packets in the namespace of a trust anchor", "statement": "The policy lets validation go on exactly if the identity in the KeyLocator is a prefix of the packet's name, and then asks for the certificate named there; otherwise it fails, without an exception. Hence a packet is found valid only if its name is in the namespace of a trust anchor (or of a certificate declared verified), or below one of the two names reserved for digest and HMAC signatures.", "quantifier": "all packets and KeyLocators, all histories of the validator, chains of any length, all signature schemes in which only digest signatures verify without a certificate", "why_tests_cant": "As for C74: chains of arbitrary length and caches from arbitrary earlier histories.", "anchors": ["ndn-cxx/security/validation-policy-simple-hierarchy.cpp: checkPolicy", "ndn-cxx/security/validation-policy.cpp: extractIdentityNameFromKeyLocator, getKeyLocatorName", "ndn-cxx/security/validator.cpp: Validator", "ndn-cxx/security/verification-helpers.cpp: verifySignature"]}
{"id": "C76", "title": "Management requests reach exactly one handler, and only after authorization", "statement": "With a Dispatcher, addTopPrefix fails exactly if the prefix overlaps with one in force, and adding a command, dataset or stream fails exactly if there is a top-level prefix or its relative prefix overlaps. Once the filters are set, an Interest has an effect if and only if its name is under a top-level prefix followed by a relative prefix in force, both unique; it then reaches that handler and no other. The command handler or dataset handler of the application runs only when an authorization that was asked for that same Interest was accepted (and, for a command, its parameters decoded and validated); every response sent (403, 400, the code chosen by the handler, a Nack, a segment) answers a request of the history with that request's name; and each decision of the application has its effect. False for a command added with the older addControlCommand and an Interest that has the name of the command without parameters (undefined behaviour), and false that each requester of a dataset is authorized: stored segments are sent to later requesters without asking.", "quantifier": "every history of registrations, removals, Interests, authorizations, handler results and event-loop tasks in any order and interleaving, every set of non-overlapping names, every storage capacity of at least 16", "why_tests_cant": "The claims range over interleavings of pending authorizations with registrations and posted tasks; tests run a few scripted sequences.", "anchors": ["ndn-cxx/mgmt/dispatcher.cpp: Dispatcher::addTopPrefix, removeTopPrefix, checkPrefix, processCommand, processAuthorizedCommand, processStatusDatasetInterest, afterAuthorizationRejected, queryStorage", "ndn-cxx/mgmt/dispatcher.hpp: Dispatcher::addControlCommand", "ndn-cxx/impl/face-impl.hpp: Face::Impl::dispatchInterest"]}
{"id": "C77", "title": "Notifications of a stream are numbered consecutively and never share a name", "statement": "Posting a notification sends and stores one Data whose name is the top-level prefix, the stream's relative prefix and as sequence number the count of notifications posted under that name before, provided there is exactly one top-level prefix; otherwise it does nothing. Two notifications never have the same name. The last fails if a stream is added later whose relative prefix equals the full name of a stream posted to before: its counter starts again (C77_reuse_refuted).", "quantifier": "every history of the Dispatcher, every stream, every naming convention", "why_tests_cant": "Tests post a handful of notifications with one prefix; the claim is over all histories of adding and removing prefixes and of posting.", "anchors": ["ndn-cxx/mgmt/dispatcher.cpp: Dispatcher::addNotificationStream, postNotification, sendData"]}
{"id": "C78", "title": "Dataset segments and notifications can be fetched while the Dispatcher's storage holds them", "statement": "Every segment that a dataset handler produces is stored, and the first one is also sent. A segment or notification that the Dispatcher stored remains stored until as many later packets as the capacity of its storage have been stored, and until then every Interest without MustBeFresh that it satisfies and that reaches a dataset or stream is answered at once with a stored packet satisfying it (that very packet if no other satisfies it). A dataset with more segments than the storage holds cannot be fetched in full: its first segments are gone when it is complete and Interests for them are ignored (C78_large_refuted).", "quantifier": "every history of the Dispatcher, every capacity of at least 16, every stored packet and Interest", "why_tests_cant": "Eviction depends on the whole history of insertions; tests use few packets and the default capacity.", "anchors": ["ndn-cxx/mgmt/dispatcher.cpp: Dispatcher::sendData, queryStorage, sendStatusDatasetSegment", "ndn-cxx/ims/in-memory-storage-fifo.cpp: InMemoryStorageFifo::evictItem"]}
{"id": "C79", "title": "Dataset entries and notifications of the forwarder survive encoding, and compare by their values", "statement": "An object of ChannelStatus, StrategyChoice, CsInfo, FaceEventNotification, FaceQueryFilter, FaceStatus, NextHopRecord, FibEntry, Route, RibEntry or ForwarderStatus, however made by setters, unsetters, additions, encodings and decodings, encodes to an element with its fields in the order and with the TLV-TYPE numbers of the NFD protocol, and this decodes to an object with the same values (time points up to the millisecond). Decoding accepts exactly such elements (FibEntry and RibEntry: with nothing but records after the name; otherwise trailing elements are ignored) and throws tlv::Error on all others. Getters return what was last set; operator== holds exactly if all values are equal, records of an entry in any order. The flag bit functions get and set exactly one bit. Refuted: bits 31 to 63 (C79_flag_bits_refuted); a ForwarderStatus with a huge timestamp makes decoding overflow, which is undefined behaviour (C79_timestamp_refuted).", "quantifier": "every class, every history of calls, every input element", "why_tests_cant": "Tests encode one or two objects of each class; the claim is over all values, all orders of calls and all inputs.", "anchors": ["ndn-cxx/mgmt/nfd/channel-status.cpp, strategy-choice.cpp, cs-info.cpp, face-event-notification.cpp, face-query-filter.cpp, face-status.cpp, fib-entry.cpp, rib-entry.cpp, forwarder-status.cpp: wireEncode, wireDecode, operator==, setters", "ndn-cxx/mgmt/nfd/face-traits.hpp: getFlagBit, setFlagBit"]}
{"id": "C80", "title": "A dataset payload is read as exactly the entries that were published", "statement": "The parsers of the dataset classes accept a payload exactly if it is a sequence of entries of the right type and return the entries in order, else they throw tlv::Error. If a dataset handler appends the encodings of entries to its StatusDatasetContext and ends the response, then the contents of the published segments, put together, are parsed as the same entries, wherever the segment boundaries fall. The general status is read back from the value of the encoded ForwarderStatus and the CsInfo from its encoding.", "quantifier": "every class of entry, every list of entries made by any history of calls, every payload, every Interest name and convention", "why_tests_cant": "Tests parse one payload of two entries; segment boundaries inside entries, and arbitrary malformed payloads, are not covered.", "anchors": ["ndn-cxx/mgmt/nfd/status-dataset.cpp: parseDatasetVector, parseResult", "ndn-cxx/mgmt/status-dataset-context.cpp: append, end"]}
{"id": "C81", "title": "Control responses survive encoding", "statement": "A ControlResponse, however made by setters, encodings and decodings, encodes to an element of type 101 with its code, text and body in this order, which decodes to the same code, text and body. Decoding accepts exactly the elements of type 101 that start with a StatusCode below 2^32 and a StatusText; the next element is the body and further ones are ignored; everything else is rejected with tlv::Error. Getters return what was last set.", "quantifier": "every history of calls, every input element", "why_tests_cant": "Tests encode one response; the claim is over all codes, texts, bodies, orders of calls and inputs.", "anchors": ["ndn-cxx/mgmt/control-response.cpp: ControlResponse::wireEncode, wireDecode, setCode, setText, setBody"]}
{"id": "C82", "title": "A notification subscriber has one Interest while it runs and none when it does not", "statement": "Once the face has executed what was posted, at most one Interest of a NotificationSubscriber is pending, and none after stop() or destruction. While it is stopped, it sends nothing and calls no handler, whatever arrives. While it runs, an Interest that can time out is pending or a retry is scheduled, whatever handlers do, unless a handler of onTimeout throws. (A handler of onTimeout that throws leaves it without either, although isRunning() is true; an answer that arrives between its destruction and the posted withdrawal of the Interest uses the destroyed object.)", "quantifier": "every sequence of calls to start, stop and connect, posted functions, Data, Nacks, timeouts, timers, and actions of handlers including throwing", "why_tests_cant": "Tests run a few exchanges; the claim is over all interleavings of calls, answers and posted functions.", "anchors": ["ndn-cxx/util/notification-subscriber.cpp: start, stop, sendInitialInterest, sendNextInterest, sendInterest, shouldStop, afterReceiveData, afterReceiveNack, afterTimeout", "ndn-cxx/face.cpp: Face::expressInterest, PendingInterestHandle", "ndn-cxx/impl/face-impl.hpp: satisfyPendingInterests, asyncRemovePendingInterest"]}
{"id": "C83", "title": "Notifications are delivered in sequence", "statement": "Every notification a subscriber delivers answers an initial Interest, or the Interest for exactly its sequence number that was sent after the notification with the previous number (modulo 2^64) with no notification in between. After each notification the subscriber asks for the next number unless it was stopped. If no handler throws, no Interest delivers more than one notification. (The same notification may be delivered twice: if a handler throws, or through a second Interest whose withdrawal is only posted.)", "quantifier": "every history, every name and content of Data, every pair of naming conventions in which numbers can be decoded", "why_tests_cant": "The order depends on the interleaving of answers, retries and handlers' actions over unbounded histories.", "anchors": ["ndn-cxx/util/notification-subscriber.cpp: afterReceiveData, sendNextInterest", "ndn-cxx/util/notification-subscriber.hpp: decodeAndDeliver", "ndn-cxx/interest.cpp: Interest::matchesData"]}
{"id": "C84", "title": "Back-off after Nacks", "statement": "After the k-th Nack in a row with the same sequence number (0 for an Interest without one), the subscriber waits 2^k * 100 ms plus less than 100 ms before it asks again. With a non-empty prefix, at most 55 Nacks and no destruction, nothing undefined happens. (The delay has no limit: with the 57th Nack in a row it does not fit in the integer to which it is converted.)", "quantifier": "every history, every random number, every prefix", "why_tests_cant": "The overflow needs a long history, and the delay depends on the whole history of Nacks.", "anchors": ["ndn-cxx/util/notification-subscriber.cpp: exponentialBackoff, afterReceiveNack"]}
{"id": "C85", "title": "A Link's Content is its list of delegations", "statement": "A Link made from a name and delegations, or decoded, has ContentType Link and a Content that holds exactly its delegations, in order, after every sequence of setDelegationList, addDelegation, removeDelegation, decoding and signing in which each call that threw left the object as it was. Adding a name that is present returns false and changes nothing; adding another appends it; removing deletes every occurrence and returns whether there was one. Octets decode as a Link exactly if they are a Data packet of ContentType Link whose Content is a sequence of elements in which every critical one is a Name, and the delegations are those Names. The encoding of a Link decodes to the same delegations and the same fields. (removeDelegation of a reference into the object's own list fails if the list has duplicates; a failed decoding leaves old delegations with the new packet; a default-constructed Link is not encoded as a Link.)", "quantifier": "every Link, every history of calls, every octet sequence, every delegation list", "why_tests_cant": "The list and the packet are updated separately, so agreement is an invariant over histories; acceptance ranges over all octet sequences; aliasing depends on the contents of the list.", "anchors": ["ndn-cxx/link.cpp: Link::encodeContent, wireDecode, setDelegationList, addDelegation, removeDelegation"]}
{"id": "C86", "title": "Metadata packets carry the versioned name", "statement": "A Data packet is accepted as metadata exactly if its name ends with the keyword component 'metadata', a version and a segment number, its ContentType is Blob, and its Content is a sequence of elements with a Name among them; the versioned name is the first such Name; everything else is rejected with tlv::Error. makeData refuses, with tlv::Error, a discovery name that does not end with the keyword; a packet it returns has that name with the version and segment 0 appended and the freshness period asked for, encodes, decodes to itself, and gives back the versioned name. The name of a discovery Interest ends with the keyword.", "quantifier": "every Data packet, versioned name, discovery name, version, freshness period, signing operation and pair of conventions where the decoding one admits the encoding one", "why_tests_cant": "Acceptance ranges over all names and contents, and the round trip over all names, versions and conventions.", "anchors": ["ndn-cxx/metadata-object.cpp: MetadataObject, makeData, isValidName, makeDiscoveryInterest"]}
{"id": "C87", "title": "Prefix announcements say what the object says", "statement": "A Data packet is accepted as a prefix announcement exactly if its name ends with the keyword component 'PA', a version and a segment number, its ContentType is PrefixAnn, and its Content has an ExpirationPeriod, perhaps a well-formed ValidityPeriod, and otherwise only elements that are not critical; the announced name, expiration and validity are those of the packet. After every history of setters and toData in which no signing failed, the packet toData returns encodes, decodes to itself and is read as an announcement equal to the object; a new packet is named after the announced name, the keyword, the version asked for and segment 0. A packet, once made or received, is returned again until a setter returns. A negative expiration is refused and changes nothing. (If signing throws, the next toData returns the unsigned packet; a received ExpirationPeriod of 2^63 or more gives a negative expiration.)", "quantifier": "every Data packet; every history of setAnnouncedName, setExpiration, setValidityPeriod and toData; every version, signing operation and pair of compatible conventions", "why_tests_cant": "The cached packet makes the result depend on the history; acceptance ranges over all contents.", "anchors": ["ndn-cxx/prefix-announcement.cpp: PrefixAnnouncement, toData, setAnnouncedName, setExpiration, setValidityPeriod", "ndn-cxx/prefix-announcement.hpp: operator=="]}
{"id": "C88", "title": "The verdict on a management response", "statement": "When the Content of a validated response to an NFD management command is examined by nfd::Controller, the success callback gets the parameters exactly if the Content is a control response with a status code below 400 whose body decodes as control parameters having the fields and values that the command's response must have; the failure callback gets that very response if its code is 400 or more, and a response with code 500 for every other Content, whatever its octets; no exception escapes. What a server encodes from any control parameters and response, the client reports as the same parameters, or the same code and text.", "quantifier": "all commands, all Content octets, all parameters and responses a server can build", "why_tests_cant": "The Content is arbitrary octets from the network, and the parameters are any combination of 15 optional fields; tests use a few canned responses.", "anchors": ["ndn-cxx/mgmt/nfd/controller.cpp:processValidatedCommandResponse", "ndn-cxx/mgmt/nfd/control-command.cpp:validateResponse", "ndn-cxx/mgmt/control-response.cpp:wireDecode"]}
{"id": "C89", "title": "Every management command is reported once", "statement": "Whatever the order of Nacks, timeouts, Data, validation results, further commands started in callbacks, and destruction of the Controller: each command is reported at most once, to the success or the failure callback it was started with and never to an empty one, with the verdict on the Content that came for that command, or with code 10800, 10060 or 10021 after a Nack, a timeout or a failed validation; and no command is lost: as long as it is unreported, the next such event for it is reported.", "quantifier": "all histories of calls and network events, and all actions of callbacks", "why_tests_cant": "Interleavings of commands, callbacks that start or destroy things, and late events are unbounded.", "anchors": ["ndn-cxx/mgmt/nfd/controller.cpp:startCommand", "ndn-cxx/mgmt/nfd/controller.cpp:processCommandResponse", "ndn-cxx/mgmt/nfd/controller.hpp:start"]}
{"id": "C90", "title": "Every management dataset is reported once", "statement": "Whatever the history: a dataset that is fetched is reported at most once, on completion with its value or with code 500 if it does not parse, and on an error of the retrieval with code 10060, 500, 10021 or 10800 according to the error; as long as the Controller exists no dataset is lost; the Controller keeps exactly the retrievals that go on; after it is destroyed no dataset is reported and nothing is sent; and its destruction is safe at any time.", "quantifier": "all histories of calls and signals of the fetchers, and all actions of callbacks", "why_tests_cant": "Destruction at any point, reentrant callbacks and callbacks that throw make an unbounded set of histories.", "anchors": ["ndn-cxx/mgmt/nfd/controller.cpp:fetchDataset", "ndn-cxx/mgmt/nfd/controller.cpp:processDatasetFetchError", "ndn-cxx/mgmt/nfd/controller.hpp:processDatasetResponse", "ndn-cxx/mgmt/nfd/controller.cpp:~Controller"]}
{"id": "C91", "title": "A SafeBag carries a certificate and an encrypted key unchanged", "statement": "Encoding a SafeBag with a signed certificate succeeds unless the octets exceed what a buffer can hold, and gives a SafeBag TLV (128) that holds exactly the certificate's Data TLV and the EncryptedKey TLV (129). Decoding that, into any object, gives a certificate with the same fields and the same key octets. Decoding succeeds exactly on a SafeBag TLV that holds a readable Data and a key and nothing else. A certificate signed with the library comes out with the same octets and the same signed range, so its signature still verifies; full claim: any certificate does.", "quantifier": "All certificates (Data packets) in the ranges of the C++ types, all key octets, all elements to decode, all signers, all objects decoded into", "why_tests_cant": "The octets of the certificate are rebuilt from its fields; that this is the identity has to hold for every packet, and fails for those with elements the decoder ignores", "anchors": ["ndn-cxx/security/safe-bag.cpp: SafeBag::wireEncode, SafeBag::wireDecode", "ndn-cxx/data.cpp: Data::wireEncode, Data::wireDecode"]}
{"id": "C92", "title": "AdditionalDescription is a map that survives encoding", "statement": "After any history of set, wireEncode and wireDecode, get returns for each key the value last set or that of the last entry decoded, has tells whether there is one, and get throws its Error otherwise. Two descriptions compare equal exactly if every key has the same value in both. What wireEncode returns decodes to an equal description; a description that was built with set is written with one entry per key in ascending order of the keys. Decoding succeeds exactly if every element is an entry of one key and one value or is not critical, and throws tlv::Error otherwise. Full claim: also if set is called after wireEncode or wireDecode.", "quantifier": "All histories of set, wireEncode and wireDecode, all keys and values, all elements to decode", "why_tests_cant": "It is about all histories of calls and all key sets; the cached encoding is wrong only in some orders of calls", "anchors": ["ndn-cxx/security/additional-description.cpp: AdditionalDescription::get, set, has, wireEncode, wireDecode", "ndn-cxx/security/additional-description.hpp: operator=="]}
{"id": "C93", "title": "The text form of SigningInfo", "statement": "A signing string is accepted exactly if it is empty, id:, key: or cert: followed by a Name URI, the digest-sha256 identity, or hmac-sha256: followed by a key the loader accepts, and then denotes that signer; anything else throws std::invalid_argument, the error of the Name parser or that of the key loader. Printing a SigningInfo and parsing the text gives the same signer type and name.", "quantifier": "All strings, all signers with valid names, both default URI formats, all behaviours of the key loader", "why_tests_cant": "It ranges over all strings and names; the exceptions are single names and types that tests do not try", "anchors": ["ndn-cxx/security/signing-info.cpp: SigningInfo::SigningInfo(std::string_view), operator<<"]}
{"id": "C94", "title": "A certificate bundle decodes to its certificates however it is cut into segments", "statement": "For every sequence of octets and every way to cut it into segments, the certificates a CertificateBundleDecoder has signalled after the segments given so far are exactly the certificates at the beginning of the octets so far, in order, with ignorable elements skipped. Octets that are not yet a complete element wait. A critical unknown element or a Data element that is not a certificate makes that call of append throw tlv::Error, and every later call throws and signals nothing. A malformed bundle is reported.", "quantifier": "all octet sequences, all ways to cut them into segments, all certificates and other elements among them", "why_tests_cant": "tests use one bundle and a few cuts; the claim is about all cuts, including those inside a type or length field, and about every continuation after an error", "anchors": ["ndn-cxx/security/detail/certificate-bundle-decoder.cpp: CertificateBundleDecoder::append, decode", "ndn-cxx/security/detail/certificate-bundle-decoder.hpp: CertificateBundleDecoder", "ndn-cxx/security/certificate.cpp: Certificate(const Block&)"]}
{"id": "C95", "title": "The bundle fetcher asks for the right segments and hands on a certificate that was asked for", "statement": "For a Data packet under validation, CertificateBundleFetcher first asks for the newest bundle named by the packet's name without implicit digest and segment number, followed by _BUNDLE and 0; each later certificate request asks for the next segment until the bundle's last one, after which, as after a Nack, a timeout or an answer without a segment number, the inner fetcher is used. An answer that is a segment has all its certificates cached, and validation continues with a cached certificate matching the request. No answer from the network can stop the validation from concluding.", "quantifier": "all names of Data packets, all bundle segments (names, FinalBlockId, content octets), all segment numbers, all states of the cache", "why_tests_cant": "the answers come from the network and may hold any octets; the segment numbers where the encoding gets longer are not reached by tests with a few segments", "anchors": ["ndn-cxx/security/certificate-bundle-fetcher.cpp: doFetch, fetchFirstBundleSegment, fetchNextBundleSegment, dataCallback, nackCallback, timeoutCallback, deriveBundleName", "ndn-cxx/name-component.cpp: Component::getSuccessor"]}
{"id": "C96", "title": "A logger has the level of the last setting for it, whenever it was made", "statement": "For every history of Logging::setLevel with patterns and config strings, construction of Loggers and registration of names, the level of each Logger is that of the last setting whose pattern is for its name (the name itself, a prefix followed by *, or all), and NONE if there is none, no matter whether the Logger was made before or after the setting. A config string is its settings one after the other, up to the first malformed item, which throws std::invalid_argument. getLoggerNames gives exactly the valid names of Loggers made and names registered.", "quantifier": "all histories of settings, config strings, loggers and registered names; all patterns and names", "why_tests_cant": "the settings are kept in a table that broader settings thin out and that later loggers search; agreement with the order of settings is about all histories and all nestings of prefixes", "anchors": ["ndn-cxx/util/logging.cpp: Logging::setLevelImpl, findLevel, addLoggerImpl, registerLoggerNameImpl, getLoggerNamesImpl", "ndn-cxx/util/logger.cpp: parseLogLevel, operator<<, isValidLoggerName, Logger::Logger, Logger::registerModuleName", "ndn-cxx/util/logger.hpp: LogLevel, Logger::isLevelEnabled"]}
{"id": "C97", "title": "FaceUri texts: what is accepted, and printing reads back", "statement": "FaceUri accepts exactly scheme://authority/path where the scheme is word characters with at most one + between them, the path starts with / and has no ?, and the authority is empty, a bracketed IPv6 or Ethernet address (perhaps with a zone), a bracketed IPv4-mapped address, or a text without colon, the last three with an optional :port. Whatever was accepted prints to a text that is accepted and gives an equal FaceUri; the text is the one read unless the address was IPv4-mapped, which becomes IPv4. Two accepted FaceUris are equal exactly if they print the same. FaceUris made from an Ethernet address, an IPv4 or IPv6 endpoint, an absolute UNIX path without ?, a file descriptor, or an interface name without : and / read back as equal ones.", "quantifier": "all texts; all Ethernet addresses; all addresses, ports, paths and interface names of the stated forms", "why_tests_cant": "five overlapping regular expressions are tried in turn on an unbounded set of texts; tests fix a few", "anchors": ["ndn-cxx/net/face-uri.cpp: FaceUri::parse, FaceUri::print, FaceUri::FaceUri, fromFd, fromDev, fromUdpDev", "ndn-cxx/net/face-uri.hpp: operator==", "ndn-cxx/net/ethernet.cpp: Address::toString"]}
{"id": "C98", "title": "canonize gives canonical FaceUris and leaves them alone", "statement": "For every FaceUri read from a text: canCanonize holds for exactly udp, udp4, udp6, tcp, tcp4, tcp6, ether, dev, udp4+dev and udp6+dev; for other schemes isCanonical is false and canonize fails. If canonize succeeds its result is canonical, and a canonical FaceUri is its own result. For UDP and TCP the result has the address that the host is or resolves to, the scheme with the family of that address (the same scheme if it names a family), no path, and as port the number given or else 6363, 56363 for multicast; TCP never gives a multicast address. dev accepts only a host with an optional trailing slash, udp4+dev and udp6+dev only a host and port, ether any host that reads as an Ethernet address other than zero.", "quantifier": "all FaceUris read from texts; all answers of the resolver and of address parsing", "why_tests_cant": "the result depends on what the host resolves to and on the texts that address parsing and printing give; tests fix a few hosts", "anchors": ["ndn-cxx/net/face-uri.cpp: FaceUri::canCanonize, isCanonical, canonize, IpHostCanonizeProvider, UdpCanonizeProvider, TcpCanonizeProvider, EtherCanonizeProvider, DevCanonizeProvider, UdpDevCanonizeProvider"]}
{"id": "C99", "title": "Resolving a host name calls exactly one callback", "statement": "dns::asyncResolve calls exactly one of its callbacks exactly once, whatever the order in which the resolver answers and the event loop runs its handler and the timeout: onSuccess with the first address that the selector accepts, onError if the resolver failed or no address is accepted, onError with a timeout if that comes first. An empty callback is not called.", "quantifier": "all schedules of the answer, its handler and the timer; all answers; all address selectors", "why_tests_cant": "the answer comes from another thread and may be waiting in the event loop when the timer fires; tests do not control this order", "anchors": ["ndn-cxx/net/dns.cpp: Resolver::asyncResolve, onResolveResult, onResolveTimeout", "ndn-cxx/net/dns.hpp: asyncResolve, AddressSelector"]}
{"id": "C100", "title": "A network interface and its signals agree", "statement": "After any history of updates, getNetworkAddresses lists for each IP address the record given last and not removed since, once; onAddressAdded and onAddressRemoved about an IP address alternate, beginning with onAddressAdded, and the address is listed exactly if the last one was onAddressAdded; unspecified addresses are never added. getState and getMtu give the value set last, and onStateChanged and onMtuChanged report exactly the changes, each with the value before and a different new value. A record replaced by one with the same IP address and other flags is not signalled.", "quantifier": "all histories of address additions and removals, state and MTU changes; all addresses", "why_tests_cant": "whether the signals can be replayed into the present state depends on the whole history", "anchors": ["ndn-cxx/net/network-interface.cpp: NetworkInterface::addNetworkAddress, removeNetworkAddress, setState, setMtu", "ndn-cxx/net/network-address.hpp: NetworkAddress, operator<"]}
{"id": "C101", "title": "An indented stream prefixes every line and keeps the text", "statement": "Whatever is written to an IndentedStream, in whatever pieces, appears in the stream below by the time of destruction with the prefix before each line and a newline after the last; flushes after whole lines do not show, and whole lines can be read back. A stream with prefix q on top of one with prefix p, q without newlines, prints what a stream with prefix pq would. A flush within a line ends that line.", "quantifier": "all histories of writes and flushes; all texts and prefixes", "why_tests_cant": "texts, the way they are cut into writes, and the places of flushes are unbounded", "anchors": ["ndn-cxx/util/indented-stream.cpp: IndentedStream::StreamBuf::sync, ~IndentedStream"]}
{"id": "C102", "title": "Tags of packets become link fields and come back", "statement": "A packet sent by a Face carries exactly the NDNLPv2 fields its tags ask for (NextHopFaceId and CongestionMark for an Interest, CachePolicy and CongestionMark for Data, the header and CongestionMark for a Nack), around the unchanged encoding of the packet, in at most 8800 octets; without tags an Interest or Data is sent as it is. A Face that receives a packet delivers the enclosed one, as a Nack exactly if there is a Nack field, tagged with IncomingFaceId and CongestionMark exactly if there are such fields. So the congestion mark and the Nack reason pass from face to face.", "quantifier": "all network packets, all tag values that their fields can hold, all combinations of tags", "why_tests_cant": "packets, tag values and their combinations are unbounded; encoder and decoder must agree on all of them", "anchors": ["ndn-cxx/impl/lp-field-tag.hpp: addFieldFromTag, addTagFromField", "ndn-cxx/impl/face-impl.hpp: Face::Impl::expressInterest, putData, putNack, finishEncoding", "ndn-cxx/face.cpp: Face::onReceiveElement, extractLpLocalFields", "ndn-cxx/lp/tags.hpp"]}
{"id": "C103", "title": "Scoped handles cancel exactly what they are responsible for", "statement": "Whatever a program does with ScopedCancelHandle objects (making, moving, assigning, cancelling, releasing, destroying), each operation is cancelled at most once, at the moment the object responsible for it is cancelled, destroyed or assigned to; a released operation is never cancelled; moving passes the responsibility on; and when no object is left, every operation not released has been cancelled. Moving an object onto itself cancels its operation.", "quantifier": "all histories over any number of scoped handles that use only objects that exist", "why_tests_cant": "responsibility moves between objects along histories of unbounded length", "anchors": ["ndn-cxx/detail/cancel-handle.hpp: ScopedCancelHandle", "ndn-cxx/detail/cancel-handle.cpp: CancelHandle::cancel"]}
