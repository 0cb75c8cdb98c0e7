{"id": "C01", "title": "Varint round trip, minimality and range", "statement": "Encoding any value below 2^62 with the public encoder's varint method appends exactly the number of bytes reported by the varint-length helper, that number is the least of 1, 2, 4 or 8 able to hold the value, and decoding those bytes followed by any other bytes returns the value and leaves exactly the other bytes. Decoding never returns a value of 2^62 or more, and values of 2^62 or more are refused by the encoder.", "quantifier": "every 62-bit value, every prefix already in the encoder and every suffix after it, every byte string given to the decoder", "why_tests_cant": "There are 2^62 values and unboundedly many surrounding buffers; tests sample the size boundaries only.", "anchors": ["neqo-common/src/codec.rs: Encoder::encode_varint, Encoder::varint_len, Decoder::decode_varint"]}
{"id": "C02", "title": "Decoder never reads past its buffer and only moves forward", "statement": "Every decoder operation (fixed-size integers, varints, byte runs, length-prefixed byte runs, skips, remainder) leaves the unread part a suffix of what was unread before, never yields a byte that was not in the buffer, and fails exactly when fewer bytes remain than the item needs; length-prefixed byte strings written by the encoder are read back unchanged.", "quantifier": "every byte string, every read position and every sequence of decoder calls", "why_tests_cant": "Out-of-bounds and misalignment bugs hide in inputs whose declared lengths disagree with the real ones; the space of malformed inputs is infinite.", "anchors": ["neqo-common/src/codec.rs: Decoder::{decode,decode_n,decode_uint,decode_varint,decode_vec,decode_vvec,skip,skip_vec,skip_vvec,decode_remainder}, Encoder::{encode_uint,encode_vec,encode_vvec,encode_vvec_with,encode_vec_with}"]}
{"id": "C03", "title": "Incremental decoding does not depend on how input is split", "statement": "Feeding a byte stream to the incremental varint or incremental byte-run decoder in any partition into chunks yields the same result, at the same stream position, as one-shot decoding of the whole stream; before that position it always asks for at least one and never for more bytes than are still needed.", "quantifier": "every byte stream and every partition of it into non-empty chunks", "why_tests_cant": "The number of partitions is exponential in the stream length.", "anchors": ["neqo-common/src/incrdecoder.rs: IncrementalDecoderUint, IncrementalDecoderBuffer, IncrementalDecoderIgnore"]}
{"id": "C04", "title": "Truncated packet numbers are recovered exactly", "statement": "If the true packet number is within half a window of the receiver's expected number, recovering it from its low 1 to 4 bytes gives the true number; recovery always returns a number whose low bytes are the ones received and, when it exists, one nearest the expected value.", "quantifier": "every packet number below 2^62, every expected number, every encoding width", "why_tests_cant": "Correctness at the window edges and near 0 for all 62-bit numbers cannot be enumerated.", "anchors": ["neqo-transport/src/packet/mod.rs: Public::decode_pn, Builder::pn"]}
{"id": "C05", "title": "Sender chooses a packet number length the peer can decode", "statement": "For any largest packet number the peer has acknowledged and any new packet number, the number of bytes the sender writes lets a receiver that has received every packet up to at least that acknowledgement, and none later than the new packet, recover the full number.", "quantifier": "every pair of largest-acknowledged and next packet numbers with fewer than 2^31 packets outstanding, and every receiver state between them", "why_tests_cant": "The relation is between two independent endpoints' counters across 62-bit values.", "anchors": ["neqo-transport/src/connection/mod.rs: Connection::build_packet_header, add_packet_number", "neqo-transport/src/packet/mod.rs: Builder::pn, Public::decode_pn"]}
{"id": "C06", "title": "Acknowledgement ranges survive the wire", "statement": "The ACK frame written for a set of received packet-number ranges, when parsed and expanded by the peer, denotes exactly those ranges, in descending order.", "quantifier": "every descending list of disjoint non-adjacent ranges of packet numbers that fits in the packet", "why_tests_cant": "Gap/length arithmetic must be right for every combination of range positions and sizes.", "anchors": ["neqo-transport/src/tracking.rs: RecvdPackets::write_frame", "neqo-transport/src/frame.rs: Frame::decode, Frame::decode_ack_frame"]}
{"id": "C07", "title": "ACK parsing accepts only well-formed range lists", "statement": "Expanding a received ACK frame either fails, or yields strictly descending, disjoint ranges, all at or below the largest acknowledged, never denoting a negative packet number; it fails whenever the encoded gaps and lengths would go below packet number zero.", "quantifier": "every largest-acknowledged value, first range and list of gap/length pairs", "why_tests_cant": "A hostile peer controls all of these 62-bit values.", "anchors": ["neqo-transport/src/frame.rs: Frame::decode_ack_frame"]}
{"id": "C08", "title": "A received packet is never processed twice", "statement": "Once a packet number has been recorded as received in a packet number space, every later query reports it as a duplicate, for ever, although only a bounded number of ranges is kept.", "quantifier": "every sequence of received packet numbers, acknowledgements and trims", "why_tests_cant": "Depends on the interplay of range merging, trimming and the lower bound over unbounded histories.", "anchors": ["neqo-transport/src/tracking.rs: RecvdPackets::{set_received,add,trim_ranges,is_duplicate,acknowledged}"]}
{"id": "C09", "title": "Only received packets are acknowledged and memory for them is bounded", "statement": "Each range ever put in an ACK frame contains only packet numbers that were received; the tracker holds at most 32 ranges, descending and separated by at least one missing number; and a range stops being advertised only when it was trimmed or an ACK frame covering it was itself acknowledged.", "quantifier": "every sequence of receive, acknowledge and write operations", "why_tests_cant": "Unbounded histories with reordering and loss of ACK frames.", "anchors": ["neqo-transport/src/tracking.rs: RecvdPackets, PacketRange"]}
{"id": "C10", "title": "Stream reassembly delivers the sender's bytes in order, exactly once", "statement": "If all frames received on a stream carry the true bytes of the stream at their offsets (in any order, fragmentation, duplication and overlap), the concatenation of everything the application reads is always a prefix of the stream, and everything contiguous from the start that has arrived can be read.", "quantifier": "every byte stream, every sequence of frames cut from it and every interleaving of reads with any buffer sizes", "why_tests_cant": "The number of overlap and ordering patterns is unbounded; merging bugs show only for particular layouts.", "anchors": ["neqo-transport/src/recv_stream.rs: RxStreamOrderer::{inbound_frame,read,read_to_end,bytes_ready,data_ready}"]}
{"id": "C11", "title": "Reassembly never duplicates or loses a received byte internally", "statement": "After any frames, the buffered ranges are sorted, non-empty and disjoint, start at or after the read position, and cover exactly the offsets received but not yet read; each buffered byte is the byte of some frame that carried that offset.", "quantifier": "every sequence of frames (even mutually inconsistent ones) and reads", "why_tests_cant": "State invariant over unbounded histories.", "anchors": ["neqo-transport/src/recv_stream.rs: RxStreamOrderer"]}
{"id": "C12", "title": "Receive stream end and final size are consistent", "statement": "Once a final size is known it never changes: a frame, FIN or reset that disagrees with it, or that lies beyond it, is a final-size error; the application is told the stream is finished exactly when it has read all bytes up to the final size.", "quantifier": "every sequence of STREAM, RESET_STREAM, STOP_SENDING and read operations", "why_tests_cant": "State machine with eight states and data-dependent transitions.", "anchors": ["neqo-transport/src/recv_stream.rs: RecvStream::{inbound_stream_frame,reset,read,set_state_if_both_fin,stop_sending}"]}
{"id": "C13", "title": "Peer cannot make us accept data beyond the flow control limits", "statement": "If the bytes received on a stream (or summed over the connection) exceed the limit that has been advertised, the operation fails with a flow-control error; otherwise it is accepted. Accounting of consumed bytes is exact.", "quantifier": "every history of consume, retire and update operations", "why_tests_cant": "Limits and usage move together over unbounded histories.", "anchors": ["neqo-transport/src/fc.rs: ReceiverFlowControl::{consume,set_consumed,add_retired,frame_sent}"]}
{"id": "C14", "title": "We never send beyond the peer's flow control limits", "statement": "The number of bytes (or streams) consumed never exceeds the largest limit ever received from the peer, whatever the order in which limit updates arrive; a smaller, stale update is ignored.", "quantifier": "every interleaving of limit updates, consumption, blocked notifications, and loss", "why_tests_cant": "Updates may be reordered and duplicated arbitrarily.", "anchors": ["neqo-transport/src/fc.rs: SenderFlowControl, SenderFlowControl<StreamType>", "neqo-transport/src/streams.rs: Streams::stream_create"]}
{"id": "C15", "title": "Advertised flow control limits never go backwards", "statement": "The sequence of limits written in MAX_DATA, MAX_STREAM_DATA and MAX_STREAMS frames by a receiver is non-decreasing, including retransmissions after loss, and each one equals the number of bytes retired plus the configured window (capped at 2^62-1).", "quantifier": "every history of reads, window changes, frame losses and frame writes", "why_tests_cant": "Interleavings of loss and window tuning are unbounded.", "anchors": ["neqo-transport/src/fc.rs: ReceiverFlowControl::{write_frames,frame_lost,set_max_active,auto_tune,next_limit}"]}
{"id": "C16", "title": "A blocked signal is sent once per limit", "statement": "A *_BLOCKED frame is requested only when the limit is exhausted, reports the limit in force, is repeated after loss only if that limit is still in force, and at most one is requested per limit value otherwise.", "quantifier": "every interleaving of blocked, sent, lost and update operations", "why_tests_cant": "Interleavings unbounded.", "anchors": ["neqo-transport/src/fc.rs: SenderFlowControl::{blocked,blocked_needed,blocked_sent,frame_lost,update}"]}
{"id": "C17", "title": "Stream identifiers are allocated uniquely, in order, with the right type bits", "statement": "Locally created streams of one type receive identifiers n*4+type for n = 0,1,2,... with no gaps or repeats, never beyond the peer's limit; the peer may open a stream iff its index is below the advertised limit, and opening one implicitly opens all lower ones of the type, exactly once each.", "quantifier": "every sequence of stream creations and limit changes", "why_tests_cant": "Unbounded sequences of creation, limits, closures.", "anchors": ["neqo-transport/src/fc.rs: LocalStreamLimits, RemoteStreamLimit", "neqo-transport/src/stream_id.rs: StreamId", "neqo-transport/src/streams.rs: Streams::ensure_created_if_remote"]}
{"id": "C18", "title": "Per-byte delivery state on the send side is exact", "statement": "After any history of sending, acknowledging and losing ranges, each stream offset is in exactly the state that history implies: acknowledged for ever once acknowledged, otherwise in flight if sent and not since declared lost, otherwise to be sent; the next range offered for sending is the lowest not-in-flight, unacknowledged one.", "quantifier": "every sequence of mark-sent, mark-acked, mark-lost operations on arbitrary overlapping ranges", "why_tests_cant": "Overlap patterns of three kinds of ranges are unbounded; the code coalesces and caches.", "anchors": ["neqo-transport/src/send_stream.rs: RangeTracker::{mark_acked,mark_sent,unmark_range,unmark_sent,first_unmarked_range,acked_from_zero,highest_offset}"]}
{"id": "C19", "title": "Retransmission carries the same bytes and nothing is freed early", "statement": "The bytes offered for (re)transmission at an offset are always the bytes the application wrote at that offset; a byte is dropped from the send buffer only after everything up to it was acknowledged.", "quantifier": "every sequence of writes, sends, acknowledgements and losses", "why_tests_cant": "Unbounded histories.", "anchors": ["neqo-transport/src/send_stream.rs: TxBuffer::{send,next_bytes,mark_as_sent,mark_as_acked,mark_as_lost,unmark_sent}"]}
{"id": "C20", "title": "A stream completes exactly when all data and the FIN are acknowledged", "statement": "A send stream reports completion once, and only when every byte written and the FIN (or the reset) has been acknowledged by the peer; loss of any unacknowledged part causes that part to be offered again.", "quantifier": "every sequence of write, close, send, acknowledge, lose, reset operations", "why_tests_cant": "State machine times byte ranges times loss.", "anchors": ["neqo-transport/src/send_stream.rs: SendStream::{mark_as_acked,mark_as_lost,mark_as_sent,reset_acked,reset_lost}"]}
{"id": "C21", "title": "Loss detection never loses track of a packet", "statement": "Every sent packet leaves the outstanding set exactly once: by being acknowledged, by expiring after it was declared lost, or by the space being discarded; a packet is reported lost at most once and never after it was acknowledged; acknowledging a range removes exactly the outstanding packets in it.", "quantifier": "every history of sends, acks with arbitrary ranges, loss timers and discards", "why_tests_cant": "Unbounded histories and reorderings.", "anchors": ["neqo-transport/src/recovery/sent.rs: Packets", "neqo-transport/src/recovery/mod.rs: LossRecoverySpace::{on_packet_sent,remove_acked,detect_lost_packets}"]}
{"id": "C22", "title": "A packet is declared lost only on evidence", "statement": "A packet is declared lost only if a later packet was acknowledged and either three later packet numbers were acknowledged-or-passed or the loss delay has elapsed since it was sent; conversely every such packet is declared lost.", "quantifier": "every outstanding set and every clock value", "why_tests_cant": "All combinations of send times and packet numbers.", "anchors": ["neqo-transport/src/recovery/mod.rs: LossRecoverySpace::detect_lost_packets, PACKET_THRESHOLD"]}
{"id": "C23", "title": "In-flight accounting is exact", "statement": "The congestion controller's bytes in flight equals the total size of packets that are in flight and neither acknowledged, lost nor discarded; it returns to zero when all are resolved and never underflows.", "quantifier": "every history of sent, acked, lost, discarded and re-assigned packets", "why_tests_cant": "Sum over unbounded histories.", "anchors": ["neqo-transport/src/cc/classic_cc.rs: ClassicCongestionController::{on_packet_sent,on_packets_acked,on_packets_lost,discard,discard_in_flight}"]}
{"id": "C24", "title": "The congestion window never collapses below the minimum and reacts once per recovery period", "statement": "The congestion window is always at least two maximum-size datagrams; within one recovery period at most one multiplicative reduction happens whatever number of losses or marks is reported; growth happens only when the window was in use.", "quantifier": "every sequence of congestion events", "why_tests_cant": "Unbounded histories of acks, losses and ECN marks.", "anchors": ["neqo-transport/src/cc/classic_cc.rs: ClassicCongestionController", "neqo-transport/src/cc/new_reno.rs, cubic.rs"]}
{"id": "C25", "title": "Pacing bounds the sending rate", "statement": "Over any interval, the bytes the pacer lets through without waiting are at most one burst plus twice the congestion window per round trip of elapsed time plus one packet; and the time it tells the sender to wait for is enough to earn a packet.", "quantifier": "every sequence of sends at non-decreasing times", "why_tests_cant": "Integral over unbounded schedules.", "anchors": ["neqo-transport/src/pace.rs: Pacer::{next,spend}"]}
{"id": "C26", "title": "RTT estimates stay within the samples", "statement": "The minimum RTT never exceeds any sample; smoothed RTT always lies between the least and greatest adjusted samples; the probe timeout is never less than the minimum granularity above the smoothed RTT.", "quantifier": "every sequence of RTT samples and ack delays", "why_tests_cant": "Unbounded sequences of 64-bit durations.", "anchors": ["neqo-transport/src/rtt.rs: RttEstimate::{update,init,pto}"]}
{"id": "C27", "title": "Anti-amplification limit", "statement": "Until a path is validated the bytes sent on it never exceed three times the bytes received from it.", "quantifier": "every sequence of received and sent datagrams on a path", "why_tests_cant": "Depends on every possible size sequence.", "anchors": ["neqo-transport/src/path.rs: Path::{amplification_limit,add_received,add_sent}", "neqo-transport/src/recovery/mod.rs: LossRecovery::send_profile", "neqo-transport/src/connection/mod.rs: output_dgram_on_path"]}
{"id": "C28", "title": "A path becomes valid only by proof of receipt", "statement": "A path being probed becomes valid only on a PATH_RESPONSE carrying the data of the outstanding challenge; after the permitted number of unanswered probes it is abandoned and never used again.", "quantifier": "every sequence of probes, timeouts, responses with arbitrary contents", "why_tests_cant": "Contents and orders are unbounded.", "anchors": ["neqo-transport/src/path.rs: Path::{probe,path_response,process_timeout,write_frames}, ProbeState"]}
{"id": "C29", "title": "Connection IDs issued to the peer are unique, sequential and bounded", "statement": "Each NEW_CONNECTION_ID we issue has a fresh sequence number, increasing by one; the number of active issued IDs never exceeds the peer's limit; retiring an ID that was never issued is an error; a retired ID is never again accepted or advertised.", "quantifier": "every sequence of issue, retire, lose and acknowledge operations", "why_tests_cant": "Unbounded histories.", "anchors": ["neqo-transport/src/cid.rs: ConnectionIdManager::{write_frames,retire,lost,acked,set_limit}"]}
{"id": "C30", "title": "Connection IDs received from the peer are kept consistently", "statement": "The store of remote connection IDs never holds two entries sharing a sequence number, ID or reset token; a frame that reuses one of these with different others is a protocol violation; an exact repeat is harmless; retiring prior to n removes exactly the entries below n and reports them.", "quantifier": "every sequence of NEW_CONNECTION_ID frames", "why_tests_cant": "Peer-controlled, unbounded.", "anchors": ["neqo-transport/src/cid.rs: ConnectionIdStore::{add_remote,retire_prior_to,next}"]}
{"id": "C31", "title": "Address validation tokens are accepted only where and while valid", "statement": "Assuming authenticated encryption, a token is accepted as proof of address only if this server issued it for the same address (and port, for Retry) and it has not expired; a Retry token returns exactly the connection ID it was issued for; any token issued by the server is accepted from that address until its expiry.", "quantifier": "every address, port, connection ID, time and token byte string", "why_tests_cant": "Adversarial byte strings and unbounded clocks.", "anchors": ["neqo-transport/src/addr_valid.rs: AddressValidation::{generate_token,decrypt_token,validate,encode_aad}"]}
{"id": "C32", "title": "ECN validation fails closed", "statement": "Once ECN is found broken on a path it is never used there again, and packets are marked only while testing or validated; a congestion signal is taken from the peer's counts only when the path is validated and the CE count rose.", "quantifier": "every sequence of acks, ECN counts, losses", "why_tests_cant": "Unbounded histories of peer-controlled counters.", "anchors": ["neqo-transport/src/ecn.rs: Info::{on_packet_sent,on_packets_acked,on_packets_lost,validate_ack_ecn_and_update,ecn_mark}"]}
{"id": "C33", "title": "The idle timeout never fires early, and keep-alive beats it", "statement": "The connection is reported idle only if neither a packet was received, nor a first ack-eliciting packet sent after a receive, for max(timeout, three probe timeouts); the keep-alive deadline never lies after the idle deadline.", "quantifier": "every timestamped sequence of receives, sends and peer settings", "why_tests_cant": "Unbounded schedules.", "anchors": ["neqo-transport/src/connection/idle.rs: IdleTimeout"]}
{"id": "C34", "title": "Each datagram handed to the connection has exactly one fate, in order", "statement": "Every datagram accepted for sending is either placed in exactly one packet, in order of submission, or is reported dropped exactly once; writing never overfills a packet; an oversized incoming datagram is a protocol violation.", "quantifier": "every sequence of datagram submissions and packet-building calls with any space", "why_tests_cant": "Unbounded sequences, arbitrary sizes.", "anchors": ["neqo-transport/src/quic_datagrams.rs: QuicDatagrams::{add_datagram,write_frames,handle_datagram}"]}
{"id": "C35", "title": "Transport parameters round trip and are validated", "statement": "Encoding any set of transport parameters and decoding it yields the same set; repeated or out-of-range parameters and those the peer's role must not send are rejected; unknown ones are skipped without effect.", "quantifier": "every parameter set and every byte string", "why_tests_cant": "Unbounded inputs.", "anchors": ["neqo-transport/src/tparams.rs: TransportParameters::{encode,decode}, TransportParameter::{encode,decode}"]}
{"id": "C36", "title": "0-RTT is accepted only if remembered limits still hold", "statement": "If the server judges its current parameters acceptable for a 0-RTT ticket, no limit the client remembered has been reduced.", "quantifier": "every pair of remembered and current parameter sets", "why_tests_cant": "All combinations of parameter presence and value.", "anchors": ["neqo-transport/src/tparams.rs: TransportParameters::ok_for_0rtt"]}
{"id": "C37", "title": "Key updates keep the two directions in step and never reuse a packet number", "statement": "Across any interleaving of local and peer key updates and timers: write keys are never more than one generation ahead of read keys, the next read keys are always exactly one ahead, the write packet number never repeats or decreases even across keys, and each received packet is decrypted under a key generation consistent with packet-number order.", "quantifier": "every interleaving of sends, receives, updates, timers", "why_tests_cant": "Unbounded interleavings.", "anchors": ["neqo-transport/src/crypto.rs: CryptoDxState, CryptoStates::{initiate_key_update,key_update_received,check_key_update,check_pn_overlap,auto_update,maybe_update_write}"]}
{"id": "C38", "title": "Path MTU only grows to sizes proven deliverable", "statement": "The path MTU used for ordinary packets never exceeds the size of some probe that was acknowledged on the path (or the base size), nor the interface or peer limit; at most three probes are lost per size.", "quantifier": "every sequence of probe sends, acks and losses", "why_tests_cant": "Unbounded histories with spurious loss.", "anchors": ["neqo-transport/src/pmtud.rs: Pmtud::{send_probe,on_packets_acked,on_packets_lost,start,set_peer_max_udp_payload}"]}
{"id": "C39", "title": "Slow-start exit heuristics are safe", "statement": "The delay-based slow-start exit only leaves slow start after the required number of round-trip samples and rounds, growth per acknowledgement never exceeds the bytes acknowledged (nor the per-ack cap when not paced), and the delivery-rate history never reads a slot that was not written or was overwritten.", "quantifier": "every sequence of sends and acks", "why_tests_cant": "Unbounded histories; ring-buffer aliasing shows only after wraparound.", "anchors": ["neqo-transport/src/cc/hystart.rs: HyStart", "neqo-transport/src/cc/search.rs: Search"]}
{"id": "C40", "title": "Closing is final and draining sends at most one close", "statement": "After the connection closes, it never again reports an earlier state; a draining endpoint sends at most one CONNECTION_CLOSE; after a stateless reset it sends nothing.", "quantifier": "every sequence of close, drain, reset, send and receive events", "why_tests_cant": "Unbounded sequences.", "anchors": ["neqo-transport/src/connection/state.rs: State, StateSignaling", "neqo-transport/src/connection/mod.rs: set_state"]}
{"id": "C41", "title": "Frame writers never exceed the packet space they are given", "statement": "STREAM, CRYPTO, DATAGRAM, MAX_*, *_BLOCKED, NEW_CONNECTION_ID, RETIRE_CONNECTION_ID, PATH_*, ACK and CONNECTION_CLOSE writers either write nothing or a frame that fits in the space remaining in the packet, and STREAM/CRYPTO writers record exactly the offset and length they wrote.", "quantifier": "every remaining space, offset, data length and FIN state", "why_tests_cant": "Boundary interactions of variable-length fields at every size.", "anchors": ["neqo-transport/src/send_stream.rs: SendStream::write_stream_frame, length_and_fill", "neqo-transport/src/crypto.rs: write_chunk", "neqo-transport/src/connection/state.rs: ClosingFrame::write_frame"]}
{"id": "C42", "title": "Frames written by us are parsed back by the peer", "statement": "Each frame the endpoint writes is parsed by the frame decoder to the same frame with the same contents, leaving exactly the rest of the packet; frame types not minimally encoded are refused.", "quantifier": "every field value of every frame type the endpoint writes and every following byte string", "why_tests_cant": "All 62-bit field values and payloads.", "anchors": ["neqo-transport/src/frame.rs: Frame::decode, FrameType"]}
{"id": "C43", "title": "Packet headers round trip and coalesced packets are split exactly", "statement": "A long or short header built by the endpoint is parsed back to the same type, version, connection IDs, token and length; concatenated long-header packets are split at exactly the packet boundaries; the parser never claims more bytes than were given.", "quantifier": "every version, connection ID, token, payload and trailing packet", "why_tests_cant": "Arbitrary lengths and contents.", "anchors": ["neqo-transport/src/packet/mod.rs: Builder::{short,long,initial_token,write_len,build}, Public::decode"]}
{"id": "C44", "title": "Version selection picks a mutually supported version", "statement": "Version negotiation and compatible upgrade choose the first version in the local preference order that the peer offered (and, for an upgrade, that is compatible); packet type bytes map back to the same type for every version.", "quantifier": "every preference list and offered list", "why_tests_cant": "All lists.", "anchors": ["neqo-transport/src/version.rs: Config::{preferred,preferred_compatible}", "neqo-transport/src/packet/mod.rs: Type::{to_byte,from_byte}"]}
{"id": "C45", "title": "Probe timeout probes are not wasted", "statement": "When a probe timeout fires, the packets whose contents are re-sent are the oldest not yet probed ones, and a packet whose contents were not queued for re-sending is not marked as having been probed.", "quantifier": "every outstanding set of packets and sizes", "why_tests_cant": "All combinations of packet sizes.", "anchors": ["neqo-transport/src/recovery/mod.rs: LossRecovery::maybe_fire_pto, LossRecoverySpace::pto_packets"]}
{"id": "C46", "title": "Handshake data reassembly is bounded", "statement": "CRYPTO data more than 65536 bytes ahead of what was consumed is refused and does not grow the buffer; otherwise data is accepted.", "quantifier": "every sequence of CRYPTO frames and reads", "why_tests_cant": "Peer-controlled unbounded sequences.", "anchors": ["neqo-transport/src/crypto.rs: CryptoStreams::inbound_frame"]}
{"id": "C47", "title": "Undecryptable datagrams are kept in order and bounded", "statement": "At most four datagrams are saved per epoch; those saved are handed back once, in arrival order, when keys for the epoch become available.", "quantifier": "every sequence of saves and key arrivals", "why_tests_cant": "Unbounded sequences.", "anchors": ["neqo-transport/src/saved.rs: SavedDatagrams"]}
{"id": "C48", "title": "Negotiated acknowledgement rate is always computable and within bounds", "statement": "For every transport parameter set the peer may legally send, computing the requested acknowledgement frequency succeeds and yields a delay between the peer's minimum and 50 ms (or the RTT fraction) and a packet tolerance between 1 and 255.", "quantifier": "every peer min/max ack delay, window, MTU and RTT", "why_tests_cant": "All parameter combinations.", "anchors": ["neqo-transport/src/ackrate.rs: AckRate::new, FlexibleAckRate", "neqo-transport/src/connection/mod.rs: process_tps"]}
{"id": "C49", "title": "Server name search stays in bounds", "statement": "Searching a ClientHello fragment for the server name never fails on any input and any range it returns lies inside the input.", "quantifier": "every byte string", "why_tests_cant": "All malformed inputs.", "anchors": ["neqo-transport/src/sni.rs: find_sni"]}
{"id": "C50", "title": "Stream scheduling serves by priority and then round robin", "statement": "Among equal-priority streams with a fixed send group, each scheduling round visits each stream once before any stream twice; the queues hold exactly the live fair streams, each once; higher send orders are served before lower ones, groups take turns, and streams that are not fair come first.", "quantifier": "every sequence of insert, remove, visit operations", "why_tests_cant": "Unbounded sequences of stream set changes.", "anchors": ["neqo-transport/src/send_stream.rs: OrderGroup, SendStreams"]}
{"id": "C51", "title": "The frame type reported to the peer is the type of the frame in error", "statement": "When processing a received frame fails, the frame type put in the CONNECTION_CLOSE frame is the type that frame had on the wire.", "quantifier": "every frame the decoder can return", "why_tests_cant": "Each frame type would need its own test; the mapping from parsed frame to type is a separate function from the parser.", "anchors": ["neqo-transport/src/frame.rs:Frame::get_type", "neqo-transport/src/connection/mod.rs:process_packet"]}
{"id": "C52", "title": "A due acknowledgment is sent and its timer then stops", "statement": "Processing an ack-eliciting packet arms the ACK timer (at once for the handshake spaces or when more packets wait than tolerated, otherwise within the ack delay). The timer stays armed until an ACK frame is written, and when it is due and the packet has room an ACK frame is written, so that the connection does not ask to be called again with a zero delay for ever.", "quantifier": "every history of received packets, ACK frames written, ACK frames acknowledged and ACK_FREQUENCY updates", "why_tests_cant": "The failing histories need 33 gaps and acknowledged ACKs before an old packet arrives.", "anchors": ["neqo-transport/src/tracking.rs:RecvdPackets::set_received", "neqo-transport/src/tracking.rs:RecvdPackets::write_frame", "neqo-transport/src/connection/mod.rs:next_delay"]}
{"id": "C53", "title": "Receive-window arithmetic never overflows", "statement": "Whatever window sizes the transport parameters or the application set, the bookkeeping and auto-tuning of receive windows never overflow or underflow 64-bit arithmetic.", "quantifier": "every initial window, every sequence of received bytes, reads, window changes, updates written and lost, at every time and RTT", "why_tests_cant": "Overflow depends on the product of window size and elapsed time, which tests do not reach.", "anchors": ["neqo-transport/src/fc.rs:ReceiverFlowControl::auto_tune_inner", "neqo-transport/src/fc.rs:ReceiverFlowControl::next_limit"]}
{"id": "C54", "title": "MAX_STREAMS frames carry values a peer accepts", "statement": "Every MAX_STREAMS frame sent carries a value of at most 2^60, since a peer must close the connection on a larger one.", "quantifier": "every initial stream limit accepted by the connection parameters and every number of streams retired", "why_tests_cant": "Needs limits near 2^60.", "anchors": ["neqo-transport/src/fc.rs:ReceiverFlowControl::next_limit", "neqo-transport/src/frame.rs:Frame::decode"]}
{"id": "C55", "title": "A stream is refused for fragmentation only when it is fragmented", "statement": "A STREAM or CRYPTO frame is refused as too fragmented (closing the connection with PROTOCOL_VIOLATION) only if the data received so far really has more than the permitted number of gaps; and the number of separate buffered ranges stays within that limit.", "quantifier": "every sequence of frames and reads", "why_tests_cant": "The limit counts buffered ranges, and how frames split into ranges depends on the whole history.", "anchors": ["neqo-transport/src/recv_stream.rs:RxStreamOrderer::inbound_frame", "neqo-transport/src/recv_stream.rs:RxStreamOrderer::max_gaps_exceeded"]}
{"id": "C56", "title": "Receiving on a stream never panics", "statement": "Whatever STREAM, RESET_STREAM and RESET_STREAM_AT frames the peer sends, and however they interleave with reads, stop-sending, and acknowledged or lost STOP_SENDING frames, processing them never panics.", "quantifier": "every sequence of these events on any number of streams sharing a connection", "why_tests_cant": "The subtractions and debug assertions depend on agreement between flow control, buffer and stream state over the whole history.", "anchors": ["neqo-transport/src/recv_stream.rs:RecvStream"]}
{"id": "C57", "title": "Connection flow-control credit is never lost", "statement": "Of the connection-level credit the peer has used, everything except data that is still unread on live streams is returned to it: when a stream is read to its end, reset (also partially), or abandoned by the application, all the credit it used comes back, so MAX_DATA eventually covers it.", "quantifier": "every history of frames, resets, reads and stops over any number of streams", "why_tests_cant": "A leak needs a particular sequence (a reset after partial reads, a stop between frames), and shows only as a stall much later.", "anchors": ["neqo-transport/src/recv_stream.rs:RecvStream::reset", "neqo-transport/src/recv_stream.rs:RecvStream::stop_sending", "neqo-transport/src/fc.rs:ReceiverFlowControl"]}
{"id": "C58", "title": "ECN counts reported to the peer are exact", "statement": "Every ACK frame that is written carries, for each of the marks ECT(0), ECT(1) and CE, the number of packets of that space that were processed with that mark, and no ECN section exactly if all are zero.", "quantifier": "every sequence of packets with any marks, duplicates, ACKs written and acknowledged", "why_tests_cant": "Counts accumulate over unbounded histories in which duplicates must not count.", "anchors": ["neqo-transport/src/tracking.rs: RecvdPackets::write_frame, ecn_marks", "neqo-transport/src/ecn.rs: Count"]}
{"id": "C59", "title": "The newest ACK_FREQUENCY frame is in force", "statement": "The acknowledgment tolerance, delay and reordering settings in force are those of the ACK_FREQUENCY frame with the highest sequence number received so far (the latest of equals), or the defaults, whatever the order of arrival.", "quantifier": "every sequence of frames in any order", "why_tests_cant": "Reordering of arbitrarily many frames.", "anchors": ["neqo-transport/src/tracking.rs: RecvdPackets::ack_freq"]}
{"id": "C60", "title": "A send stream that says it has something to send writes it, within the packet", "statement": "If a send stream reports data at a priority, writing at that priority into a packet with at least 40 bytes left produces a frame; if it reports none, nothing is written; frames never exceed the space left; after a reset no byte beyond the committed size and no FIN is sent.", "quantifier": "every history of a send stream, every priority, space and scheduler limit", "why_tests_cant": "A stream that promises data and writes none spins the output loop; the states that lead there come from particular orders of loss, reset and commitment.", "anchors": ["neqo-transport/src/send_stream.rs: SendStream::has_frames_to_write, write_frames_with_early_return, write_stream_frame, write_reset_frame"]}
{"id": "C61", "title": "Send stream statistics are exact", "statement": "The numbers of bytes written, sent and acknowledged that a stream reports are those of the history, are ordered acknowledged <= sent <= written and never decrease; the bytes buffered never exceed the maximum buffer size.", "quantifier": "every history of a send stream", "why_tests_cant": "Counts over unbounded histories with overlapping retransmissions and acknowledgments in any order.", "anchors": ["neqo-transport/src/send_stream.rs: SendStream::stats, bytes_written, bytes_acked, bytes_sent"]}
{"id": "C62", "title": "Sending takes what fits and the application hears when there is room", "statement": "A send accepts exactly min(room, length) bytes (all or nothing when atomic), where room is the least of the stream limit, the connection limit and the buffer; it fails on empty data and on closed or reset streams. When the room grows to the application's watermark an event is raised, and an event is raised only if that much room is there.", "quantifier": "every history of a send stream", "why_tests_cant": "A missed event hangs the application; it depends on how limits and acknowledgments interleave.", "anchors": ["neqo-transport/src/send_stream.rs: SendStream::send_internal, avail, maybe_emit_writable_event, set_writable_event_low_watermark"]}
{"id": "C63", "title": "A send stream never panics", "statement": "No order of writes, closes, commits, resets, limits, priorities, writes to packets, acknowledgments and losses (repeated or not) makes a send stream panic.", "quantifier": "every history of a send stream", "why_tests_cant": "Panics hide in unlikely orders (acknowledgment after reset, loss after completion).", "anchors": ["neqo-transport/src/send_stream.rs: SendStream"]}
{"id": "C64", "title": "Probe timeouts back off and are bounded", "statement": "Each probe timeout raises the backoff by one and doubles the period (up to 2^24 times), grants exactly two packets beyond the congestion window, and an acknowledgment of anything new resets it. Outside of a probe timeout and recovery no packet larger than the window is allowed, and none larger than the MTU ever.", "quantifier": "every history of loss recovery, every window, MTU and pacing decision", "why_tests_cant": "Depends on unbounded orders of timeouts and acknowledgments.", "anchors": ["neqo-transport/src/recovery/mod.rs: PtoState, pto_period_inner, send_profile, fire_pto"]}
{"id": "C65", "title": "Loss and probe timers are always set when needed", "statement": "As long as a packet that was passed by an acknowledgment and is not yet lost is outstanding, the time of the next timeout is set no later than when it must be declared lost; as long as an ack-eliciting packet is outstanding (in the application space after confirmation, in the handshake spaces before) a timeout is set.", "quantifier": "every history of loss recovery", "why_tests_cant": "A missing timer hangs the connection; it depends on the order of sends, acknowledgments and expiries.", "anchors": ["neqo-transport/src/recovery/mod.rs: next_timeout, earliest_loss_time, earliest_pto, pto_time, LossRecoverySpace::detect_lost_packets"]}
{"id": "C66", "title": "Loss recovery reports packets as they were sent", "statement": "Every packet reported acknowledged, lost or dropped carries the type, number, time, size and frames it was sent with, the congestion controller is told of exactly those packets, and the loss statistics (lost packets and bytes, late acknowledgments) are those of the history.", "quantifier": "every history of loss recovery", "why_tests_cant": "A wrong frame list loses or duplicates stream data after an arbitrary history.", "anchors": ["neqo-transport/src/recovery/mod.rs: on_ack_received, timeout, discard, retry, drop_0rtt, count_lost", "neqo-transport/src/recovery/sent.rs: SentPackets"]}
{"id": "C67", "title": "RTT samples come from fresh acknowledgments on the current path", "statement": "An RTT sample is taken exactly when the largest newly acknowledged packet exceeds all acknowledged before, was sent on the current path, and an ack-eliciting packet was newly acknowledged; its value is the time since that packet was sent. After a migration no earlier packet gives a sample.", "quantifier": "every history of loss recovery", "why_tests_cant": "Depends on the order of acknowledgments, duplicates and migrations.", "anchors": ["neqo-transport/src/recovery/mod.rs: rtt_sample, on_ack_received, migrate"]}
{"id": "C68", "title": "Requests to acknowledge less often are well-formed and ordered", "statement": "Requests to the peer to change its acknowledgement rate carry increasing sequence numbers starting at 0 on the whole connection, at most one is outstanding at a time, each asks for between 2 and 256 packets and a delay no less than the peer's minimum, and one is made exactly when what is wanted differs from what is agreed in packets or by more than a quarter of the delay.", "quantifier": "every history of samples, window changes, writes, acknowledgments and losses, on every path", "why_tests_cant": "A repeated number makes the peer ignore a request; it depends on the order of path creation, loss and acknowledgment.", "anchors": ["neqo-transport/src/ackrate.rs: FlexibleAckRate, AckRate", "neqo-transport/src/rtt.rs: RttEstimate::prime_rtt, write_frames"]}
{"id": "C69", "title": "The probe timeout allows for the delay the peer was asked for", "statement": "At any time the delay of the peer that the probe timeout allows for is at least the delay in force at the peer: that of any request it may have received.", "quantifier": "every history of requests, their acknowledgment or loss, and changes of what is wanted", "why_tests_cant": "Depends on the interleaving of window changes and outstanding requests.", "anchors": ["neqo-transport/src/ackrate.rs: FlexibleAckRate::peer_ack_delay", "neqo-transport/src/rtt.rs: RttEstimate::pto"]}
{"id": "C70", "title": "Persistent congestion is declared exactly when the standard says", "statement": "When losses are reported, the controller collapses the window to two datagrams and starts slow start anew if and only if two of the lost packets, all packets between them being lost, were sent after the first RTT sample and the largest acknowledged packet and more than three probe timeouts apart.", "quantifier": "every list of lost packets in the order they were sent, every controller state", "why_tests_cant": "All subsets and gaps of lost packets and times.", "anchors": ["neqo-transport/src/cc/classic_cc.rs: ClassicCongestionController::detect_persistent_congestion"]}
{"id": "C71", "title": "Undoing a spurious congestion response restores the earlier window", "statement": "If configured, and only then, the response to a loss is taken back at an acknowledgement when every packet reported lost has been acknowledged after all or is too old to be remembered; the window is then at least what it was before the latest response to loss and nothing else of the controller is forgotten.", "quantifier": "every history of sends, losses, marks and acknowledgements", "why_tests_cant": "The undo depends on all losses since and on packet ages.", "anchors": ["neqo-transport/src/cc/classic_cc.rs: ClassicCongestionController::{detect_spurious_congestion_event,on_spurious_congestion_event,cleanup_maybe_lost_packets}"]}
{"id": "C72", "title": "Waiting is for those who pace", "statement": "With pacing disabled a sender is never told to wait; a sender with nothing in flight is never told to wait; and no wait is shorter than the timer granularity.", "quantifier": "every history of sends and MTU changes", "why_tests_cant": "Histories and sizes are unbounded.", "anchors": ["neqo-transport/src/pace.rs: Pacer::{next,spend,set_mtu}", "neqo-transport/src/sender.rs: PacketSender::next_paced"]}
{"id": "C73", "title": "A client does not reuse NEW_TOKEN tokens", "statement": "A client never uses an address validation token that is among the last eight it used, whatever the server sends again; it keeps at most four unused tokens; and the token it uses next is the one it was given last.", "quantifier": "every sequence of tokens received and taken", "why_tests_cant": "Reuse depends on the whole history of tokens received and used.", "anchors": ["neqo-transport/src/addr_valid.rs:NewTokenState::take_token", "neqo-transport/src/addr_valid.rs:NewTokenState::save_token"]}
{"id": "C74", "title": "The primary path is kept, and changes only for a reason", "statement": "However many paths the peer opens, at most fifteen are kept and the primary path is never dropped to make room; the connection ID of a dropped path is put up for retirement; unless the peer moves, the primary path changes only to a validated path; when the primary path fails the connection continues on a validated path if there is one and otherwise is told there is none; a response on the path being migrated to completes the migration.", "quantifier": "every sequence of new paths, migrations, timeouts, responses and connection ID changes", "why_tests_cant": "Paths interact: eviction, migration and failure in any order.", "anchors": ["neqo-transport/src/path.rs:Paths"]}
{"id": "C75", "title": "Version negotiation cannot be used to downgrade a connection", "statement": "Whatever genuine or forged Version Negotiation and Retry packets a client receives, it never panics and only uses versions from its configuration; and if it then accepts the server's authenticated version information, the version in use is the one the server names and is compatible with the version the client tried first, or with the client's most preferred version among those the server says it supports. Version Negotiation packets that list the current version, are empty, contain zero, carry the wrong connection ID, or come after a Retry are ignored.", "quantifier": "every client configuration, every sequence of negotiation, retry and handshake packets, every authenticated version list", "why_tests_cant": "The attacker chooses the packets and their order; tests try a few fixed lists.", "anchors": ["neqo-transport/src/connection/mod.rs: version_negotiation, validate_versions, compatible_upgrade, preprocess_packet", "neqo-transport/src/tparams.rs: TransportParametersHandler::compatible_upgrade, set_versions"]}
{"id": "C76", "title": "CRYPTO frames carry the right bytes, sliced around the server name or not", "statement": "Each CRYPTO frame written carries exactly the handshake stream's bytes at the frame's offset, frames written together do not overlap and fit in the space left in the packet, whether or not the ClientHello is cut at the server name; writing never panics.", "quantifier": "every handshake data, offset, packet limit and remaining space, with slicing on or off", "why_tests_cant": "The cut depends on where the name lies and on the sizes; tests use a few ClientHellos.", "anchors": ["neqo-transport/src/crypto.rs: CryptoStreams::write_frame, write_chunk, limit_chunks", "neqo-transport/src/sni.rs: find_sni"]}
{"id": "C77", "title": "Handshake data is sent reliably and in the right packet number space", "statement": "Each CRYPTO frame carries the bytes the handshake supplied for that packet number space at that offset and fits its packet; every supplied byte is acknowledged, in flight, or sent by the next packet with room; lost bytes are sent again; a space whose keys are discarded sends and accepts nothing.", "quantifier": "every sequence of handshake output, frame writing with any room, acknowledgments, losses, resends and key discards", "why_tests_cant": "Depends on the interleaving of writes, losses and acknowledgments, and on packet sizes.", "anchors": ["neqo-transport/src/crypto.rs: CryptoStreams", "neqo-transport/src/send_stream.rs: TxBuffer"]}
{"id": "C78", "title": "Usage limits of packet protection keys", "statement": "No key protects more packets than its confidentiality limit, which halves with each doubling of the packet size over 2^11 bytes; no key is used for more opening attempts than its integrity limit; forged packets over all keys stay below the integrity limit.", "quantifier": "every sequence of sends, receives, forged packets, key updates and timers", "why_tests_cant": "The limits are 2^28 to 2^52 packets; no test sends as many.", "anchors": ["neqo-transport/src/crypto.rs: CryptoDxState::{limit,invoked,encrypt,decrypt,next,should_update}", "neqo-transport/src/crypto.rs: CryptoStates::auto_update"]}
{"id": "C79", "title": "The peer's final transport parameters are checked against the wire", "statement": "The handshake completes only if the connection IDs the peer declares are those seen on the wire (and, at a client, those of its first Initial and of the Retry used), a client has sent no server-only parameter, a preferred address comes with a connection ID, and the acknowledgement delays are ordered; the limits then in force are the peer's or the defaults, and nothing the peer sends makes reading them panic.", "quantifier": "every byte string received as parameters, and every set of connection IDs used", "why_tests_cant": "Presence and value of some twenty parameters combine freely.", "anchors": ["neqo-transport/src/connection/mod.rs: process_tps, validate_cids, set_initial_limits", "neqo-transport/src/tparams.rs: get_integer, get_bytes, get_preferred_address"]}
{"id": "C80", "title": "Resumption tokens restore the session", "statement": "A resumption token saved by a client gives a later client with the same version enabled the version, round-trip time, server parameters, address token and TLS ticket it was made from; a token for a version not enabled is refused.", "quantifier": "every set of server parameters received, RTT, token and ticket", "why_tests_cant": "Unbounded inputs.", "anchors": ["neqo-transport/src/crypto.rs: create_resumption_token", "neqo-transport/src/connection/mod.rs: enable_resumption"]}
{"id": "C81", "title": "The application's close reason stays private until 1-RTT", "statement": "A connection closed by the application during the handshake tells the peer only APPLICATION_ERROR: the bytes of the CONNECTION_CLOSE in Initial and Handshake packets do not depend on the application's code or text. In 1-RTT packets the frame carries the application's code and a prefix of its text; a transport error always carries its code and frame type. Codes the wire cannot express must not crash the endpoint.", "quantifier": "every close reason, code, text, packet space and amount of space left in the packet", "why_tests_cant": "a test checks one code and one message; that nothing about them leaks, for any two, is a statement about pairs of executions", "anchors": ["neqo-transport/src/connection/state.rs: ClosingFrame::sanitize, ClosingFrame::write_frame", "neqo-transport/src/connection/mod.rs: write_closing_frames, close"]}
{"id": "C82", "title": "HANDSHAKE_DONE comes from the server, once", "statement": "Only a server sends HANDSHAKE_DONE, and only when its handshake is complete. The first packets it sends then carry it if there is room. It is sent again only when a packet that carried it is lost or the client sends a packet that shows it still lacks it.", "quantifier": "every sequence of calls, datagrams, losses and timers, for both roles", "why_tests_cant": "the signal shares its state with closing and is set from four places; only an invariant over all interleavings rules out an extra or missing frame", "anchors": ["neqo-transport/src/connection/state.rs: StateSignaling", "neqo-transport/src/connection/mod.rs: set_connected, handle_keys_discarded, write_appdata_frames"]}
{"id": "C83", "title": "Numbers in header compression survive, whatever their size", "statement": "Every number from 0 to 2^64-1 written into a QPACK instruction or header block, with any prefix, is read back as the same number. Bytes are read as a number exactly if they are the RFC 7541 form of a 64-bit number in at most ten bytes after the first; anything else is an error. Reading in pieces gives the same result, and no bytes make the reader panic.", "quantifier": "every 64-bit number, every prefix length, every byte string and every way of cutting it up", "why_tests_cant": "the overflow check sits on the tenth byte only and depends on the bits read before; tests pick a few numbers", "anchors": ["neqo-qpack/src/qpack_send_buf.rs: encode_prefixed_encoded_int", "neqo-qpack/src/reader.rs: IntReader", "neqo-qpack/src/prefix.rs: Prefix"]}
{"id": "C84", "title": "Huffman strings survive, and only proper ones are accepted", "statement": "Every byte string has a Huffman encoding, made of the RFC 7541 codes of its bytes and padded with ones; decoding gives the string back. Decoding accepts nothing else: no cut-off code, no padding of eight bits or with a zero, no end-of-string code. It never panics and lengthens a string by at most 8/5.", "quantifier": "every byte string, as plain text and as encoding", "why_tests_cant": "there are unboundedly many strings and bit alignments; a wrong table entry or padding check shows only on particular ones", "anchors": ["neqo-qpack/src/huffman.rs: encode, decode, BitReader", "neqo-qpack/src/huffman_decode_helper.rs: make_huffman_tree", "neqo-qpack/src/huffman_table.rs: HUFFMAN_TABLE"]}
{"id": "C85", "title": "QPACK instructions arrive as sent", "statement": "Instructions written to the encoder or decoder stream are read back as the same instructions in the same order, however the stream is cut into pieces. Arbitrary bytes never make a reader panic, the result never depends on how they are cut, a reader keeps at most 384 KiB, and a literal whose encoding is longer than 384 KiB is refused.", "quantifier": "every list of instructions with literals within the limit, every byte string, every way of cutting it up", "why_tests_cant": "the readers resume in any of a dozen states; tests cut streams at a few places", "anchors": ["neqo-qpack/src/encoder_instructions.rs: EncoderInstruction, EncoderInstructionReader", "neqo-qpack/src/decoder_instructions.rs: DecoderInstruction, DecoderInstructionReader", "neqo-qpack/src/reader.rs: LiteralReader"]}
{"id": "C86", "title": "A QPACK encoder withstands its peer", "statement": "Whatever bytes the peer sends on its decoder stream, an encoder never panics: it goes on or reports an error. Its table holds the latest insertions within its capacity and the encoder's own limit. An entry that an unacknowledged header block refers to is never evicted. At most as many streams as the peer allows refer to entries the peer has not acknowledged.", "quantifier": "every sequence of settings (blocked limit not lowered), header lists within the string limit, write successes and failures, and bytes received", "why_tests_cant": "references, acknowledgments and evictions interleave in unbounded ways; tests follow a few exchanges", "anchors": ["neqo-qpack/src/encoder.rs: Encoder", "neqo-qpack/src/table.rs: HeaderTable"]}
{"id": "C87", "title": "The required insert count is read unambiguously", "statement": "The required insert count of a header block, sent modulo twice the number of table entries, is read back by a decoder that is less than that number of insertions away. What a decoder accepts is always in that range and would be written with the bytes it read; no value overflows.", "quantifier": "every count, table size and number of insertions", "why_tests_cant": "the count wraps; tests use tables that have barely wrapped", "anchors": ["neqo-qpack/src/header_block.rs: HeaderEncoder::encode_header_block_prefix, HeaderDecoder::calc_req_insert_cnt"]}
{"id": "C88", "title": "Headers arrive through QPACK as they were sent", "statement": "With an encoder and a decoder joined by their two streams, every list of headers the decoder gives out is the one that was encoded, neither side panics or reports an error, and no more streams wait than the decoder allows, in any order of arrival, with writes that fail and streams that are given up. Once the encoder stream's bytes have arrived no header block waits; once all blocks are decoded and the decoder stream's bytes have arrived, the encoder holds no references.", "quantifier": "every sequence of encodings, arrivals in any pieces and order across streams, failed writes and cancellations; encoder limit at least the decoder's setting", "why_tests_cant": "two tables must agree although instructions, acknowledgments and blocks are reordered; tests try a few orders", "anchors": ["neqo-qpack/src/encoder.rs: Encoder::encode_header_block", "neqo-qpack/src/decoder.rs: Decoder::decode_header_block", "neqo-qpack/src/table.rs: HeaderTable"]}
{"id": "C89", "title": "A QPACK decoder withstands its peer", "statement": "Whatever bytes arrive on the encoder stream and in header blocks, a decoder never panics: it goes on or reports an error. Its table holds the latest insertions within the capacity it announced, a list of headers given out is within 384 KiB, and no more streams wait than it allows.", "quantifier": "every sequence of received bytes, header blocks, cancellations and sends", "why_tests_cant": "the bytes are the peer's choice; fuzzing samples them", "anchors": ["neqo-qpack/src/decoder.rs: Decoder", "neqo-qpack/src/header_block.rs: HeaderDecoder", "neqo-qpack/src/table.rs: HeaderTable"]}
{"id": "C90", "title": "HTTP/3 frames are read the same however the stream is cut", "statement": "The frames an endpoint takes from an HTTP/3 stream are exactly those its bytes spell, in order: unknown types are skipped whole, reserved types are H3_FRAME_UNEXPECTED, a malformed payload is an error at its place, a frame longer than its type allows is H3_EXCESSIVE_LOAD as soon as its length is known, a stream that ends inside a frame is H3_FRAME_ERROR, and no input makes the reader panic. What is kept of an unfinished frame is bounded by 384 KiB. The same holds for capsules and WebTransport session frames. A sequence of frames written by this side, with greasing among them, is read back as written.", "quantifier": "every byte sequence, every cutting into runs, every moment at which the reader is asked, every end of the stream, every sequence of frames", "why_tests_cant": "The reader is a state machine that can be interrupted at every byte of every number and payload; tests feed a few frames byte by byte.", "anchors": ["neqo-http3/src/frames/reader.rs: FrameReader::receive, consume, frame_length_decoded", "neqo-http3/src/frames/hframe.rs: HFrame::encode, decode, max_frame_data", "neqo-http3/src/frames/capsule.rs", "neqo-http3/src/frames/wtframe.rs"]}
{"id": "C91", "title": "Settings mean what was sent, and early data is taken only under settings not reduced", "statement": "A SETTINGS frame gives every setting the first value listed for it or its default; a reserved identifier or a switch that is neither zero nor one is H3_SETTINGS_ERROR. The settings sent by an endpoint read back as its parameters. A server accepts early data with a ticket exactly if no setting saved in it has been reduced since. (Extended CONNECT is not saved: switching it off does not refuse early data.)", "quantifier": "every payload, every pair of old and new parameters, every ticket", "why_tests_cant": "The decision compares two configurations and parses bytes given by the client; tests try single changes.", "anchors": ["neqo-http3/src/settings.rs: HSettings::decode_frame_contents, encode_frame_contents, get, HttpZeroRttChecker::save, check"]}
{"id": "C92", "title": "Header lists are checked before they are handed on", "statement": "A list of headers received with a request or response is handed to the application exactly if it is well-formed: pseudo-headers come first, are known, not repeated and complete for the kind of message, names are not upper-case and neither names nor values can end a line, and te is only trailers. Headers of a response that concern one connection are removed; a response is interim exactly from 100 to 199 and 101 is refused; a request is an extended CONNECT exactly if it says so. (A CONNECT with a scheme and status codes not of three digits are accepted, against the RFCs.)", "quantifier": "every list of header names and values, requests and responses", "why_tests_cant": "The rules combine order, repetition and characters; tests list some bad headers.", "anchors": ["neqo-http3/src/headers_checks.rs: headers_valid, is_interim, trailers_valid, track_pseudo_header", "neqo-http3/src/recv_message.rs: RecvMessage::add_headers", "neqo-common/src/header.rs: Header::is_allowed_for_response"]}
{"id": "C93", "title": "An HTTP/3 message is received as its bytes spell it", "statement": "However the bytes of a request or response arrive and whenever the application reads, it is given the headers (interim ones marked) and body that the stream spells, in order: at every moment a beginning of them, at the end exactly all. The end is told once, after the sender has finished and between frames. An error is reported only for bytes that deserve it, with the error that belongs to them. Without push the receiver never panics, and a finished stream whose headers can be decoded always comes to its end. (With push a promise that is unblocked after the end of the stream makes a client panic.)", "quantifier": "every byte sequence in every cutting, every order of readable, unblocked and read calls, every amount of room, every answer of QPACK", "why_tests_cant": "Frames, blocked field sections, promises and reads interleave; tests follow a few of the orders.", "anchors": ["neqo-http3/src/recv_message.rs: RecvMessage::receive_internal, read_data, header_unblocked, handle_headers_frame, handle_data_frame, add_headers, set_state_to_close_pending"]}
{"id": "C94", "title": "An HTTP/3 message is sent as it was handed over, and delivered", "statement": "Whatever sequence of headers, data, close and processing an application and a connection go through, and however little room the transport offers at a time, the bytes written spell exactly the headers and body that were accepted, in whole frames, never more than the transport offers; no assertion fails. With room for three bytes and nothing buffered at least one byte of data is taken. A closed message is finished once its buffer has been written. A receiver of these bytes never reports an error, has always been given a beginning of what was handed over, and tells the end exactly with all of it.", "quantifier": "every sequence of calls, sizes of data and of room, cutting of the bytes, and order of events at the receiver; headers acceptable and not extended CONNECT", "why_tests_cant": "The size of the frame header depends on the room and on the data; sender and receiver interleave; tests use a few sizes.", "anchors": ["neqo-http3/src/send_message.rs: SendMessage::send_headers, send_data, send_data_atomic, send, close, MessageState", "neqo-http3/src/buffered_send_stream.rs: BufferedStream::send_buffer, send_atomic, send_atomic_with", "neqo-http3/src/recv_message.rs: RecvMessage"]}
{"id": "C95", "title": "A new stream's kind is read correctly however its bytes arrive", "statement": "Each stream a peer opens is told apart by its first one or two integers (control, QPACK encoder or decoder, push, WebTransport, request, unknown). Whatever pieces the bytes come in, the kind announced is the one the bytes say, exactly the bytes after the head are left for the stream's owner, a forbidden kind is refused with the error due, a stream that ends within its head or is a critical stream that ends at once is refused, and the reader never panics or waits when it could decide.", "quantifier": "every stream contents, cutting into pieces, end and order of reads, both roles and both stream directions", "why_tests_cant": "the cuts and ends multiply; the tests feed whole bytes", "anchors": ["neqo-http3/src/stream_type_reader.rs: NewStreamHeadReader::get_type, NewStreamType::final_stream_type, map_stream_fin"]}
{"id": "C96", "title": "Server push at the client: limits, order and endings", "statement": "A peer never has more pushes open than the application allows and never uses an id above the last one announced; ids announced only grow and enough are announced again as pushes end; the headers and data of a push are told to the application only after its promise, all of them and in order; a push has one stream at most; once the application cancels a push it hears no more of it; the memory kept is bounded by the allowance; and no order of promises, streams, resets, cancellations, endings and application calls makes the client panic.", "quantifier": "every order of PUSH_PROMISE and CANCEL_PUSH frames, push streams, their events, resets and ends, application cancels, reads and event polls, every allowance", "why_tests_cant": "the orders of independent frames, streams and calls are unbounded", "anchors": ["neqo-http3/src/push_controller.rs: PushController", "neqo-http3/src/client_events.rs: Http3ClientEvents::remove_events_for_push_id, has_push"]}
{"id": "C97", "title": "HTTP/3 control stream, SETTINGS and GOAWAY rules", "statement": "On a live HTTP/3 connection the frames processed from the peer's control stream break no rule whatever batches they arrive in: SETTINGS is first and unique, DATA, HEADERS and PUSH_PROMISE never appear, each side gets only the frames meant for it, GOAWAY names a request id and never goes up, and settings remembered for early data are not taken back. If the connection is closed because of control frames, one of them broke a rule and the error is that rule's. The peer has at most one control stream and one QPACK stream per direction; they stay while the connection lives, and a second one, an end or a reset is fatal. A GOAWAY closes exactly the requests at or above its id, telling the application they were rejected, leaves the others alone, and no request can be opened after it.", "quantifier": "every role, remembered settings, sequence of stream openings, frame batches, resets, application calls and GOAWAY values", "why_tests_cant": "The rules must hold across every batching of frames and interleaving with stream events; tests try a few orders.", "anchors": ["neqo-http3/src/connection.rs: handle_control_frame, handle_settings, handle_new_stream, check_stream_exists, close_recv", "neqo-http3/src/connection_client.rs: handle_goaway, handle_stream_readable", "neqo-http3/src/connection_server.rs: handle_stream_readable", "neqo-http3/src/control_stream_remote.rs"]}
{"id": "C98", "title": "A peer is told each stream's current priority and nothing stale", "statement": "The local HTTP/3 control stream carries whole frames in the order they were given. However an application changes the priorities of requests and pushes while streams open and close, and however little room the transport offers, each PRIORITY_UPDATE sent names the priority asked for last and one the peer has not just heard; a stream with no update waiting has, as far as the peer knows, the priority asked for last; and once there is room for the waiting bytes and 18 bytes for each waiting update, the peer knows them all. No assertion fails.", "quantifier": "every sequence of openings, closings, priority updates, control frames and sends, every amount of room at each send", "why_tests_cant": "Updates, closings and shortage of room interleave without bound; tests send one update with plenty of room.", "anchors": ["neqo-http3/src/priority.rs: PriorityHandler", "neqo-http3/src/control_stream_local.rs: ControlStreamLocal::send, send_priority_update, queue_update_priority", "neqo-http3/src/connection.rs: Http3Connection::queue_update_priority", "neqo-http3/src/buffered_send_stream.rs: send_atomic_with"]}
{"id": "C99", "title": "An application hears every event that still matters, once and in order", "statement": "Whatever happens on a connection and whenever the application polls, the events waiting are exactly those due: said since they were last told and not made stale (readable by a reset or the end, writable by STOP_SENDING or completion, an old rate by a new one, everything by closing or the refusal of early data). No two waiting events say the same; events are told first come, first told; each datagram and datagram outcome is told once and in order; closing is the next thing heard; and a poll returns something whenever something is due. The last path event names the path in use.", "quantifier": "every sequence of connection occurrences and polls", "why_tests_cant": "The queue is shared by all streams and never bounded; tests try a few pairs of events.", "anchors": ["neqo-transport/src/events.rs: ConnectionEvents (all methods), EventProvider::next_event"]}
{"id": "C100", "title": "Every address-validation token is sent until it is acknowledged, and not needlessly", "statement": "A server that hands over NEW_TOKEN tokens sends each of them: a packet carries exactly waiting tokens, in the order they were handed over, all within the room there is, and leaves a waiting token out only when it does not fit in what remains. A token is repeated only after its loss was reported, and never after it was acknowledged, in whatever order losses and acknowledgements are reported.", "quantifier": "every sequence of tokens, packet sizes, loss and acknowledgement reports, including late and repeated ones", "why_tests_cant": "Loss reports, acknowledgements and packets of any size interleave; tests send one or two tokens.", "anchors": ["neqo-transport/src/addr_valid.rs: NewTokenSender::send_new_token, write_frames, lost, acked"]}
{"id": "C101", "title": "Throughput advice from the network is current and told when it changes", "statement": "Advice signalled on packets (SCONE) is read from its seven bits. After each packet the rate in force is no higher than the packet's signal, was signalled less than 67 seconds ago (else it is unknown), and is the lowest signalled in the last 67 seconds; the application has been told exactly the rate in force on the primary path and is told only changes.", "quantifier": "every sequence of packets with and without signals, at all times, on a primary or other path", "why_tests_cant": "The rule spans a time window and every order of rates; tests look at a few signals.", "anchors": ["neqo-transport/src/scone.rs: Scone::update, expired, Bitrate::from", "neqo-transport/src/path.rs: Path::update_scone"]}
{"id": "C102", "title": "An application hears of a session's start, streams, datagrams and end in order and once", "statement": "Of a WebTransport or CONNECT-UDP session the application is told the start once, streams and datagrams only between start and end, and exactly one end. Between start and end it can send datagrams and open streams; once it was told the end or closed the session itself, both are refused. Each stream the peer opens is announced once, at the latest when the session starts. When the session goes, nothing of it is left and each of its streams that had not ended is reported closed. Draining is reported once; a send group can be registered once and is known from then on.", "quantifier": "every history of response headers, frames on the CONNECT stream, ends, resets, datagrams, streams from both sides, application calls and GOAWAY, for a client and a server", "why_tests_cant": "The session, its CONNECT stream and its streams change independently; tests follow a few orders.", "anchors": ["neqo-http3/src/features/extended_connect/session.rs: Session (receive, maybe_check_headers, close, close_session, send_datagram, datagram)", "neqo-http3/src/features/extended_connect/webtransport_session.rs: Session", "neqo-http3/src/features/extended_connect/connect_udp_session.rs: Session", "neqo-http3/src/connection.rs: remove_extended_connect, handle_stream_manipulation_output, extended_connect_close_session"]}
{"id": "C103", "title": "Session datagrams and close messages arrive as they were sent", "statement": "A datagram sent on a session leaves in a QUIC datagram, or in a capsule where the protocol allows it and the peer takes no QUIC datagrams; it is dropped only for want of room on the CONNECT stream. It is delivered at the peer to the session it was sent on and no other, unchanged and once, if that session is active there. Bytes of any kind reach at most one session. The error and text given to close a session are what the peer reads.", "quantifier": "every session, payload, room, table of sessions at the peer and bytes that follow; every datagram received", "why_tests_cant": "Payloads, identifiers and sizes are unbounded, and the receiver is given bytes it did not write.", "anchors": ["neqo-http3/src/features/extended_connect/session.rs: Session::send_datagram, datagram, close_session", "neqo-http3/src/features/extended_connect/connect_udp_session.rs: dgram_context_id, write_datagram_capsule", "neqo-http3/src/connection.rs: Http3Connection::handle_datagram", "neqo-http3/src/frames/wtframe.rs, capsule.rs"]}
{"id": "C104", "title": "A WebTransport stream carries its session's name and then exactly what was written", "statement": "The transport is given, of a WebTransport stream opened here, the preface naming its session and then, in order, exactly the bytes the application was told were taken, none of them before the whole preface. The end is requested only after the application closed the stream and after all of that; nothing is taken after the close. What is promised to arrive despite a reset is nothing or includes the whole preface. The peer reads the preface as that session, waits on any part of it, and hands on the data unchanged. Statistics count the application's bytes only.", "quantifier": "every session, data, history of writes, commits, closes, stops and service, and every amount of room or error the transport answers with", "why_tests_cant": "The preface can be split anywhere by flow control and interleaves with writes, commits, closes and failures.", "anchors": ["neqo-http3/src/features/extended_connect/webtransport_streams.rs: WebTransportSendStream", "neqo-http3/src/connection.rs: stream_close_send, send_non_control_streams", "neqo-http3/src/stream_type_reader.rs: NewStreamHeadReader"]}
{"id": "C105", "title": "A server deals with every datagram once and in order, and lets in only validated clients", "statement": "A server given batches of datagrams deals with each once, in the order given and as of the time it was given, and makes progress in each call while any wait. A datagram goes to the first connection that knows the identifier in its first packet and to no other; any other leaves the existing connections as they are. A connection is created only for an Initial packet of a supported version in a datagram of at least 1200 bytes with an unknown identifier and an acceptable token; when addresses must be validated, only from an address and port to which the server sent a Retry token at most five seconds before. Stateless answers go only to datagrams of at least 1200 bytes, back to where they came from, and are at most three times their size. Connections are forgotten only when closed; the wake-up time is the earliest any connection asks for. Datagrams from strangers leave nothing behind.", "quantifier": "every sequence of calls with any batches of datagrams at any times, every behaviour of the connections, every policy", "why_tests_cant": "Datagrams of any content interleave with saved ones and with any number of connections; tests run one or two clients.", "anchors": ["neqo-transport/src/server.rs: Server (process, process_multiple, process_multiple_input, process_input, handle_initial, accept_connection, process_next_output)"]}
{"id": "C106", "title": "WebTransport and CONNECT-UDP are agreed exactly when both sides want them", "statement": "However HTTP/3 parameters are built, WebTransport is on only together with extended CONNECT, HTTP/3 datagrams, QUIC datagrams and reliable resets, and no assertion fails. A client has WebTransport after the SETTINGS exchange exactly if both sides have it on, and CONNECT-UDP exactly if both have extended CONNECT on; then the server has it too. A client's application is told once of each feature it switched on, of no other, and can create sessions exactly from when it was told that the feature is there; a session the client may ask for, the server may grant; what the server thinks agreed the client has.", "quantifier": "every sequence of parameter calls on both sides, every SETTINGS frame, every history of early data, SETTINGS and session requests", "why_tests_cant": "Five switches on two sides and the order of frames; tests try a few combinations.", "anchors": ["neqo-http3/src/conn_params.rs: Http3Parameters (webtransport, connect, http3_datagram, webtransport_enabled)", "neqo-http3/src/features/mod.rs: NegotiationState", "neqo-http3/src/features/extended_connect/mod.rs: ExtendedConnectFeature::handle_settings", "neqo-http3/src/connection.rs: Http3Connection::handle_settings", "neqo-http3/src/webtransport.rs: webtransport_create_session, webtransport_session_accept", "neqo-http3/src/connect_udp.rs: connect_udp_create_session, connect_udp_session_accept"]}
{"id": "C107", "title": "An HTTP/3 client's application hears each event once, in order, and nothing stale", "statement": "Polling an HTTP/3 client connection for events returns what was said in the order it was said, leaving out only what became stale: what a stream received once it was abandoned, failed or reset (but headers that arrived before a reset are kept), what could be sent once its sending side closed, what a push brought once it was cancelled or reset, the invitation to make requests once the peer goes away, the early state once connected, and everything once the connection closes. An event waits exactly as often as it was said and not told since it was last made stale; sessions, datagrams, tokens and the like are each told exactly once unless the connection closes; closing is the next thing heard. No event is told of a stream that is over, no news of a push comes before its promise, and no request is invited after the peer said it goes away.", "quantifier": "all sequences of calls that record events, of all kinds and with all arguments, interleaved with polls in any way", "why_tests_cant": "What is stale depends on the whole history since an event was said; tests poll after each step or look at a queue of one or two events.", "anchors": ["neqo-http3/src/client_events.rs: Http3ClientEvents::{insert, remove, recv_closed, send_closed, connection_state_change, remove_recv_stream_events, remove_send_stream_events, remove_events_for_push_id, goaway_received, push_canceled, push_reset, next_event}"]}
{"id": "C108", "title": "No request stops an HTTP/3 server, and its application hears each request and event in order", "statement": "Whatever headers a client sends, an HTTP/3 server goes on. Each well-formed request is told to the application as what it is: a request, or the wish for a WebTransport or CONNECT-UDP session; a malformed one is not told. Events of a connection come in the order they were said, each as often as it was said since it was last made stale; only headers and readability of a stream that was closed other than by its end become stale, everything else is told exactly once. The application is told of a reset or a stop only if the client reset or stopped a request it was told of, and of a writable stream only while it can be written to.", "quantifier": "all lists of headers of bytes; all sequences of calls that record events on a connection, with the server taking events in between in any way", "why_tests_cant": "The set of header lists is infinite, and tests ask for the two protocols that exist; what is stale depends on the whole history.", "anchors": ["neqo-http3/src/server_connection_events.rs: Http3ServerConnEvents::{extended_connect_new_session, header_ready, recv_closed, send_closed, remove_events_for_stream_id, next_event}", "neqo-http3/src/recv_message.rs: RecvMessage::add_headers", "neqo-http3/src/headers_checks.rs: headers_valid"]}
{"id": "C109", "title": "An HTTP/3 server hands its application every byte of a request's body that arrived, in order, and the end once", "statement": "When a request's stream can be read, the server's application is given exactly the bytes of the body that reading takes from the stream, in order and in pieces of at most 1024 bytes; no piece is empty unless it tells the end; the end is told at most once, last, and exactly when the message has ended, and then all the pieces ever given are together the body that the client's bytes spell; nothing panics, and nothing that had arrived and could be read is left behind.", "quantifier": "all clients' bytes in all divisions into arrivals, all moments of reading, any answers of the QPACK decoder", "why_tests_cant": "Body lengths, frame boundaries and piece boundaries combine without bound; a lost or doubled piece shows only where they meet.", "anchors": ["neqo-http3/src/server.rs: prepare_data", "neqo-http3/src/recv_message.rs: RecvMessage::{read_data, receive}"]}
{"id": "C110", "title": "An HTTP/3 server tells its application what happens on each connection, and lets go of a connection that ended", "statement": "In each processing round the server's application is told, for every connection that has something to tell, what its own calls raised and then all that the transport said of that connection, in order and once, whatever order the connections are visited in; connections with nothing to tell are not mentioned. A connection's end is told exactly once, also when it comes from a timer, and then the server keeps nothing for it. Every event says which connection it is about.", "quantifier": "all histories of arriving and ending connections, of processing rounds at any times with any order of connections and any output, of application calls and of taking events", "why_tests_cant": "Which connections end while others send, in which order they are visited and when events are taken is a matter of schedule; tests have one connection.", "anchors": ["neqo-http3/src/server.rs: Http3Server::{process_multiple, process_http3, process_events, next_event}", "neqo-http3/src/connection_server.rs: Http3ServerHandler::{process_http3, should_be_processed, check_connection_events}", "neqo-transport/src/server.rs: Server::{process_multiple, process_next_output, active_connections}", "neqo-transport/src/connection/mod.rs: Connection::process_timer"]}
{"id": "C111", "title": "Datagrams joined into batches come apart as they were, on both sides of the socket", "statement": "Datagrams that obey the rule of segmentation offloading (equal sizes, the last perhaps smaller, none empty), put in one batch, come out of it as they were and are counted right, and whatever bytes a batch holds its datagrams are all of them in order. What a system's receive buffers hold, however it joined datagrams, is given as the datagrams it was, with source and TOS byte as sent; empty buffers are passed over and nothing panics. Of the system's refusals only those that do not concern the sender are swallowed.", "quantifier": "all batches, all sizes, all receive buffers with any lengths and strides", "why_tests_cant": "Sizes, counts and strides combine without bound; tests use a few.", "anchors": ["neqo-common/src/datagram.rs: Batch::{iter, num_datagrams}, TryFrom<Batch>, From<Datagram>", "neqo-udp/src/lib.rs: send_inner, recv_inner, DatagramIter::next"]}
{"id": "C112", "title": "A WebTransport stream from the peer is told once, and read whole and in order", "statement": "Whatever arrives in whatever pieces, before or after the session is confirmed, and however the application reads: what it has read is the beginning of what the peer sent, in order; it is answered the end once, only when it has everything and the peer's end arrived. It is told of the stream once, and while the session is active and the stream open it has been told of the last arrival. Every read gives bytes while there are any. A stream goes away only read to the end, reported closed, or stopped by the application, and is reported closed at most once and never after its end was read.", "quantifier": "all histories of arrivals, confirmations, reads of any size, resets from both sides and ends of the session", "why_tests_cant": "Arrivals, reads and session events interleave without bound; tests follow a few orders.", "anchors": ["neqo-http3/src/features/extended_connect/webtransport_streams.rs: WebTransportRecvStream::{receive, reset, read_data, stats}", "neqo-http3/src/features/extended_connect/webtransport_session.rs: Session::{add_stream, remove_recv_stream}", "neqo-http3/src/connection.rs: Http3Connection::{stream_receive, read_data, close_recv, remove_extended_connect}"]}
