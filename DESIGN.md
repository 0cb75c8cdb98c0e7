# Formal model of mozilla/neqo in Rocq: design

## Method

Each area of the code is modelled by total, computable Gallina functions, one per
Rust function, in `rocq/theories/<Area>Model.v`; every definition cites the file and
lines it models and says where it simplifies.  Independent specifications live in
`<Area>Spec.v` (or at the head of the property file when they are one line).  Lemmas
are in `<Area>Proofs.v`.  `<Area>Props.v` holds only the property theorems, each
closed by `exact`, with `Print Assumptions` beneath and an `Example` showing that its
hypotheses are met by a concrete, non-trivial case.

Conventions

* Data numbers (`u8`..`u64`, `usize`, durations in nanoseconds) are `N` (or `Z` when
  subtraction matters); lists are `list`.  `BTreeMap` is an association list sorted by
  key.  Wrap-around is not modelled unless the comment says so; the theorems then carry
  the bound under which the Rust arithmetic does not overflow, or the operation is
  modelled as checked.
* A panic (`assert!`, `expect`, index out of bounds, checked arithmetic) is an explicit
  error value.  `debug_assert!` is modelled as a panic only where stated.
* `&mut self` methods return the new state.
* External services (AEAD, random numbers, clock, TLS) are `Section` variables or
  arguments; what is assumed about them is stated as a hypothesis of the theorem.
* A statement that is false of the faithful model is kept visible and refuted by a
  theorem `..._refuted` with a concrete witness; the part that does hold is proved as
  `..._partial`.

## Properties: what is modelled and how it is proved

| Id | Model | Proof |
|----|-------|-------|
| C01 | `Encoder::encode_varint`, `varint_len`, `Decoder::decode_varint` over byte lists | case split on the four size classes, arithmetic |
| C02 | all `Decoder` reads, `encode_uint/vec/vvec/vvec_with/vec_with` | per-operation suffix lemma, induction over a list of calls; round trips |
| C03 | the three incremental decoders | induction over chunks against the one-shot decoder |
| C04 | `decode_pn` | nearest-candidate characterisation, `lia` |
| C05 | `add_packet_number` length choice + `decode_pn` | arithmetic from C04 |
| C06 | `write_frame` (ACK), `Frame::decode` ACK part, `decode_ack_frame` | induction over ranges |
| C07 | `decode_ack_frame` | induction; refutation for the off-by-one at packet 1 |
| C08 | `RecvdPackets` | invariant: received set = ranges + everything below `min_tracked` that was received |
| C09 | same | invariant by induction over operations |
| C10 | `RxStreamOrderer` | refinement to a byte map |
| C11 | same | representation invariant |
| C12 | `RecvStream` state machine | invariant over operations |
| C13 | `ReceiverFlowControl` | invariant over operations |
| C14 | `SenderFlowControl` | invariant over operations |
| C15 | `ReceiverFlowControl::write_frames/frame_lost/set_max_active/auto_tune` | monotonicity by induction; refutation for a lowered window |
| C16 | `SenderFlowControl` blocked bookkeeping | invariant with ghost history |
| C17 | `LocalStreamLimits`, `RemoteStreamLimit`, `StreamId` | induction over creations |
| C18 | `RangeTracker` | refinement to offset -> state |
| C19 | `TxBuffer` | invariant: buffer = suffix of everything written |
| C20 | `SendStream` | invariant over operations |
| C21 | `sent::Packets`, `LossRecoverySpace` | permutation/partition of the history |
| C22 | `detect_lost_packets` | characterisation both ways |
| C23 | `ClassicCongestionController` bytes_in_flight | sum invariant |
| C24 | `ClassicCongestionController` + NewReno/Cubic reductions (integer part; Cubic growth, in floating point, is an arbitrary function) | invariant |
| C25 | `Pacer` | potential argument over schedules |
| C26 | `RttEstimate` | invariant |
| C27 | `Path` counters + limit used when sending | invariant |
| C28 | `ProbeState` machine | induction over events |
| C29 | `ConnectionIdManager` | invariant; refutation for a lost frame of a retired ID |
| C30 | `ConnectionIdStore` | invariant |
| C31 | `AddressValidation` over an ideal AEAD | from AEAD hypotheses |
| C32 | `ecn::Info` | invariant |
| C33 | `IdleTimeout` | invariant over timed events |
| C34 | `QuicDatagrams` | history partition |
| C35 | transport parameter codec | round trip by induction |
| C36 | `ok_for_0rtt` | case analysis; refutation for skipped parameters |
| C37 | `CryptoDxState` / `CryptoStates` counters (keys abstracted to generation numbers) | invariant over operations |
| C38 | `Pmtud` | invariant; refutation for a twice-sent probe |
| C39 | `HyStart`, `Search` | invariants |
| C40 | `State` order, `StateSignaling` | induction |
| C41 | the frame writers' size logic | arithmetic; refutation for CONNECTION_CLOSE |
| C42 | `Frame::decode` and the writers | round trip per frame |
| C43 | header builder and `Public::decode` | round trip |
| C44 | `version::Config`, packet type bytes | list induction / finite sweep |
| C45 | `maybe_fire_pto` | refutation and partial |
| C46 | `CryptoStreams::inbound_frame` over the C10 model | invariant |
| C47 | `SavedDatagrams` | invariant; refutation for overwritten availability |
| C48 | `AckRate::new` | refutation (panic) and partial |
| C49 | `find_sni` | totality and bounds |
| C50 | `OrderGroup`, `SendStreams` | invariant |
| C51 | `Frame::get_type`, `process_packet`'s error path | round trip per frame; refutation for the reported type |
| C52 | `RecvdPackets` timers, `next_delay` | invariant over timed operations; refutation |
| C53 | `ReceiverFlowControl` arithmetic with its real bounds | arithmetic; refutation for values near 2^64 |
| C54 | `ReceiverFlowControl<StreamType>::next_limit`, `Frame::decode` | bound by induction; refutation above 2^60 |
| C55 | `RxStreamOrderer::inbound_frame` with the gap limit | characterisation of refusal; refutation |
| C56 | `RecvStream` with explicit panics | invariant over operations |
| C57 | `RecvStream`, stream and connection `ReceiverFlowControl` | sum invariant over streams |
| C58, C59 | `RecvdPackets` ECN counts and ACK_FREQUENCY | invariant over received packets |
| C60-C63 | `SendStream` state machine, statistics, watermark | invariants over operations, no-panic theorem |
| C64-C67 | `LossRecovery`: PTO, timers, reports, RTT samples | invariants over operations |
| C68, C69 | `FlexibleAckRate`, `RttEstimate::pto` | invariant; refutations |
| C70, C71 | persistent congestion, spurious-loss undo in `ClassicCongestionController` | characterisation; refutations |
| C72 | `Pacer`, `next_paced` | arithmetic; refutation |
| C73 | `NewTokenState` (client) | invariant |
| C74 | `Paths` | invariant over operations |
| C75 | `version_negotiation`, `validate_versions`, `compatible_upgrade` | two-party model; refutation |
| C76, C77 | `CryptoStreams` writing, slicing at the SNI, spaces | refinement to offset -> byte; invariant |
| C78 | `CryptoDxState` limits, `auto_update` | invariant; refutation |
| C79, C80 | `process_tps`, `validate_cids`, resumption token codec | case analysis; round trip |
| C81, C82 | `ClosingFrame::sanitize`, `StateSignaling` | case analysis; invariant; refutation |
| C83-C85 | QPACK prefixed integers, Huffman coding, instructions | round trips for every cutting of the bytes; table checked by computation and lifted by induction |
| C86, C87, C89 | QPACK `Encoder`, `Decoder`, `HeaderTable` against any peer | invariants over instructions |
| C88 | QPACK encoder and decoder joined by in-order streams | simulation between the two tables; refutation for a smaller encoder limit |
| C90 | `FrameReader` with `HFrame`, `WebTransportFrame`, `Capsule` | reader equals a one-shot parser for every cutting |
| C91 | `HSettings` codec and the early-data check | round trip; refutation for extended CONNECT |
| C92 | `headers_valid`, `is_interim`, `trailers_valid` | both directions against RFC rules; refutations |
| C93 | `RecvMessage` | refinement to the parse of all bytes; refutation for promises |
| C94 | `SendMessage`, `BufferedStream`, joined with C93 | invariant; composition with the receiver |
| C95 | `NewStreamHeadReader` | reader equals one-shot parse for every cutting |
| C96 | `PushController` with its events | invariants over operations; refutations |
| C97 | remote control stream, SETTINGS, GOAWAY, critical streams | invariants over operations; refutations |
| C98 | `ControlStreamLocal`, `PriorityHandler` | invariant over operations; progress with enough room; refutation |
| C99 | `ConnectionEvents` | queue equals the declarative set of due events; order; refutation |
| C100 | `NewTokenSender` | place of each token as a function of the history |
| C101 | `Scone`, `Path::update_scone` | invariant over arrivals; refutations |
| C102 | `features/extended_connect/` sessions and their streams in `connection.rs` | invariants over histories; refutations for ends and late streams |
| C103 | `Session::send_datagram`, `handle_datagram`, capsules, close frames | round trips; refutations for long ones |
| C104 | WebTransport send streams (`webtransport_streams.rs`) with the calls that reach them | invariant over all histories of calls and transport answers; composition with the stream-type reader's specification |
| C105 | the transport server (`server.rs`: calls, saved datagrams, routing, Version Negotiation, Retry, acceptance, output), over any connection behaviour | invariants over all calls; composition with the packet parser (C26) and address validation; refutation by an idle connection |
| C106 | parameter builders, feature negotiation and the calls that ask for it (`conn_params.rs`, `features/`, `connection.rs` `handle_settings`) | invariant of the builders; composition with SETTINGS encoding and decoding; induction over histories; two refutations |
| C107 | event queue of an HTTP/3 client (`client_events.rs`); headers, tokens and reasons opaque | every call but a poll filters the queue by staleness and appends its news; counting and order by induction over histories; three refutations |
| C108 | events of one connection of an HTTP/3 server (`server_connection_events.rs`) behind the header checks of C92 (`recv_message.rs` `add_headers`); priorities and reasons opaque; the queue over all connections is C110 | composition with the equivalence of C92; a panic is `None`; counting and order by induction over histories; four refutations, one of them that any client can stop a server |
| C109 | the loop in which an HTTP/3 server reads a request's body for its application (`server.rs` `prepare_data`) over the message of C93 | each round is a read of C93's world, so its invariant and specification carry over; induction on the bytes left; one-run sources for what is left behind |
| C110 | an HTTP/3 server over all its connections (`server.rs` `process_multiple`, `process_http3`, `process_events`, `server_events.rs`) on the transport server's rounds; a connection is its untaken events, whether it is closed, and its timer | per-connection invariant over all histories of rounds, with the order of connections, the input and the output as arguments; two refutations, one for all continuations |
| C111 | batches of datagrams (`datagram.rs`) and the socket's splitting and sending (`neqo-udp/src/lib.rs`); the operating system and quinn-udp as hypotheses | induction on joined datagrams; splitting is the inverse of joining; one refutation |
| C112 | WebTransport receive streams (`webtransport_streams.rs`) with the session's state and the calls of `connection.rs` that reach them | invariants over all histories of arrivals, reads, resets and session events; two refutations |

## Trusted base

* Coq 8.16.1's kernel and its virtual machine (`vm_compute` is used in examples and in
  finite table checks; no `native_compute`).
* The reading of the Rust sources recorded in the comments of the model files.  The
  models are written by hand; no translator is involved and nothing was executed.
* `Print Assumptions` stands beneath every property theorem.  Each of them answers
  `Closed under the global context`: no theorem depends on any axiom.  No file declares
  an axiom, a parameter, or a variable or hypothesis outside a section, and none is
  `Admitted`.
* The checker that loads all compiled files lists seven constants of the standard
  library's `Coq.ssr.ssrunder` (`Under_rel.Over_rel`, `Under_rel_from_rel`, `over_rel`,
  `over_rel_done`, `Under_rel`, `Under_relE`, `under_rel_done`).  They are the opaque
  signature of a sealed module in that file, come in with `ssreflect`, and no theorem
  here depends on them.

### Modelled

* neqo-common: `codec.rs` (Encoder, Decoder), `incrdecoder.rs`.
* neqo-transport: `tracking.rs`, `fc.rs`, `recv_stream.rs`, `send_stream.rs`,
  `stream_id.rs`, `streams.rs` (limits), `frame.rs`, `packet/mod.rs` (headers, packet
  numbers, builder), `recovery/` (sent packets, loss recovery, ACK tokens), `rtt.rs`,
  `ackrate.rs`, `cc/` (`classic_cc.rs`, NewReno, integer part of Cubic, slow start
  exits), `pace.rs`, `sender.rs`, `ecn.rs`, `pmtud.rs`, `cid.rs`, `addr_valid.rs`,
  `path.rs`, `quic_datagrams.rs`, `tparams.rs`, `version.rs`, `sni.rs`, `crypto.rs`
  (streams, key state, limits), `saved.rs`, `connection/idle.rs`,
  `connection/state.rs`, `scone.rs`, `events.rs`, and of `connection/mod.rs` the
  functions named in the model comments (PTO, version negotiation, transport parameter
  checks, closing, resumption, stream scheduling).
* neqo-qpack: all of encoder, decoder, table, prefix, reader, huffman, instructions.
* neqo-http3: frames, settings, header checks, `recv_message.rs`, `send_message.rs`,
  `buffered_send_stream.rs`, `stream_type_reader.rs`, `push_controller.rs`,
  `priority.rs`, the control streams, sessions (`features/extended_connect/`), and of `connection*.rs` the handling of control
  frames, stream kinds, critical streams, GOAWAY and priorities.

### Not modelled

* Cryptography: AEAD, header protection masks, TLS and certificates (NSS).  They are
  arguments; each theorem that needs a property of them states it as a hypothesis.
* Floating point: Cubic's growth function and the conversion of SCONE signals to bits
  per second are arbitrary functions or left out.
* The whole of `Connection::input`/`output` as one state machine.  The components above
  are proved for every sequence of calls; that the connection calls them as the
  components' hypotheses demand is read from the source, not proved.
* of the HTTP/3 `server.rs` the set-up and GOAWAY; the transport server's qlog, logging and ECN/ECH parameters, quinn-udp under `neqo-udp`, `neqo-bin`, qlog, logging, statistics
  other than those named, hex and time helpers, the sfv parser of priorities.
* Of WebTransport and CONNECT-UDP sessions: the negotiation of the application protocol, and the withdrawal of queued events when one of the sessions' own receive streams closes.
* Memory allocation, threads (the code is single-threaded) and running time.
* Integer overflow is modelled where a comment says so; elsewhere the theorem's bounds
  keep values below the machine's limits, or numbers are taken not to overflow.

## Wrong programs

`seeded/LOG.jsonl` lists every edited model tried: the definition, the edit, the claim it
breaks, the theorems that no longer proved, and the theorems tightened when an edit went
unnoticed.
