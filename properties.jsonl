{"id": "C01", "title": "Scalar wire round trip", "statement": "A fixed width integer (or the bit pattern of a float) written to a buffer and read back from a buffer of the same byte order yields the same value, consumes exactly the bytes written, and leaves whatever follows untouched. The bytes written depend only on the value and the selected byte order, never on the host byte order.", "quantifier": "every width 1,2,4,8; every value of that width; both wire byte orders; both host byte orders; every following byte string", "why_tests_cant": "2^64 values times every suffix and both host orders; a test machine only has one host order", "anchors": ["src/pvaproto.h:_to_wire", "src/pvaproto.h:_from_wire", "src/pvaproto.h:to_wire(scalar)", "src/pvaproto.h:from_wire(scalar)"]}
{"id": "C02", "title": "Size and Selector round trip", "statement": "A length (or union selector, including the null selector) which can be represented at all is read back unchanged, whatever follows it; a length above 2^32-1 is refused with a fault and never silently truncated; the null length is accepted only where a null is allowed.", "quantifier": "every length 0..2^32-1 and beyond, every selector >= -1, both byte orders, every following byte string", "why_tests_cant": "boundaries at 253/254/255/2^32 in all combinations with following data; unbounded lengths", "anchors": ["src/pvaproto.h:Size", "src/pvaproto.h:Selector", "src/pvaproto.h:to_wire(Size)", "src/pvaproto.h:from_wire(Size)"]}
{"id": "C03", "title": "String and string array round trip", "statement": "Every byte string shorter than 2^32 (including embedded NUL) and every array of such strings is read back unchanged, followed by untouched trailing data; a null string reads as the empty string.", "quantifier": "every string content and length < 2^32, every array of strings, both byte orders, every following byte string", "why_tests_cant": "unbounded content and length", "anchors": ["src/pvaproto.h:to_wire_str", "src/pvaproto.h:from_wire(std::string)", "src/pvaproto.h:to_wire<E,C>", "src/pvaproto.h:from_wire<E,C>"]}
{"id": "C04", "title": "Numeric array round trip, independent of buffer slicing", "statement": "An array of fixed width elements is read back element for element, for either byte order, no matter how the output or input buffer is cut into contiguous slices while it is copied.", "quantifier": "every element width, every array content of length < 2^32, both byte orders and host orders, every slicing of the buffer into segments which the buffer implementation may present", "why_tests_cant": "the slicing comes from the network and the allocator; tests see one slicing", "anchors": ["src/pvaproto.h:to_wire<E,C>", "src/pvaproto.h:from_wire<E,C>", "src/evhelper.cpp:EvInBuf::refill", "src/evhelper.cpp:EvOutBuf::refill"]}
{"id": "C05", "title": "Status round trip", "statement": "A Status (code, message, trace) sent to the peer is received unchanged.", "quantifier": "every code which fits a byte, every message and trace string", "why_tests_cant": "unbounded strings, and a special one byte encoding", "anchors": ["src/pvaproto.h:Status", "src/pvaproto.h:to_wire(Status)", "src/pvaproto.h:from_wire(Status)"]}
{"id": "C06", "title": "Message header round trip and rejection", "statement": "The 8 byte message header is read back unchanged, and reading it switches the buffer to the byte order announced in the header; anything not starting with 0xca, with protocol version 0, or shorter than 8 bytes is refused.", "quantifier": "every command, flag byte, length < 2^32, byte order; every 8 byte input", "why_tests_cant": "2^64 headers", "anchors": ["src/pvaproto.h:Header", "src/pvaproto.h:to_wire(Header)", "src/pvaproto.h:from_wire(Header)"]}
{"id": "C07", "title": "Decoders never read beyond the message and faults are sticky", "statement": "For every byte string a decoder is offered, it consumes a prefix of it and no more; when the input is too short the buffer is marked faulted; once faulted no later decoder consumes anything or clears the fault.", "quantifier": "every byte string, every wire decoder modelled, every state of the buffer", "why_tests_cant": "all byte strings of all lengths", "anchors": ["src/pvaproto.h:Buffer", "src/pvaproto.h:Buffer::ensure", "src/pvaproto.h:Buffer::fault", "src/dataencode.cpp:from_wire"]}
{"id": "C08", "title": "Decoding does not depend on how the received bytes are segmented in memory", "statement": "Decoding from a segmented receive buffer gives the same values, faults and leftover bytes as decoding from one contiguous buffer with the same content.", "quantifier": "every byte string, every segmentation, every choice the buffer library makes about how much to pull up, every sequence of decoder primitives", "why_tests_cant": "segmentation is decided by TCP and libevent; tests only exercise a few", "anchors": ["src/evhelper.cpp:EvInBuf::refill", "src/pvaproto.h:Buffer::skip", "src/pvaproto.h:Buffer::ensure"]}
{"id": "C09", "title": "BitMask wire round trip", "statement": "A bit mask sent and received has the same set bits in both byte orders, and the encoding is as short as the highest set bit allows.", "quantifier": "every mask, both byte orders, every following byte string", "why_tests_cant": "2^n masks; the encoding trims words and bytes", "anchors": ["src/bitmask.cpp:to_wire", "src/bitmask.cpp:from_wire"]}
{"id": "C10", "title": "BitMask search and iteration", "statement": "findSet(i) returns the lowest set bit >= i (or size() when there is none) and iterating a mask visits exactly its set bits in ascending order.", "quantifier": "every mask, every start index, every size", "why_tests_cant": "2^n masks; a branch free bit search", "anchors": ["src/bitmask.cpp:BitMask::findSet", "src/bitmask.h:BitMask::onlySet", "src/bitmask.cpp:BitMask::resize"]}
{"id": "C11", "title": "Type description round trip", "statement": "Every type description that can be built with the TypeDef API and which is nested at most the protocol limit, sent to the peer, is decoded to an equal description: same field codes, type ids, member names and order, and same lookup of every dotted field name.", "quantifier": "every type tree up to the nesting limit with any number of members, both byte orders, every type cache content, every following byte string", "why_tests_cant": "infinitely many types", "anchors": ["src/dataencode.cpp:to_wire(FieldDesc)", "src/dataencode.cpp:from_wire(types)", "src/type.cpp:build_tree"]}
{"id": "C12", "title": "Hostile type descriptions are harmless", "statement": "Whatever bytes a peer sends as a type description, decoding either faults or yields a structurally well formed description: every member index stays in range, every parent link leads back to the enclosing structure, arrays of structure have an element type; creating a Value of it either succeeds with every field initialised or raises an exception, and never touches storage out of range.", "quantifier": "every byte string and every type cache content built by previous decoding", "why_tests_cant": "attacker controlled input", "anchors": ["src/dataencode.cpp:from_wire(types)", "src/data.cpp:Value::Value", "src/dataimpl.h:FieldDesc::size"]}
{"id": "C13", "title": "Full value round trip", "statement": "A Value of any type, sent completely, is received with the same contents in every field, including nested unions, variant unions (Any) with their types, arrays of structures and null elements.", "quantifier": "every type and every value of it, both byte orders, every following byte string", "why_tests_cant": "infinitely many types and values", "anchors": ["src/dataencode.cpp:to_wire_full", "src/dataencode.cpp:to_wire_field", "src/dataencode.cpp:from_wire_full", "src/dataencode.cpp:from_wire_field"]}
{"id": "C14", "title": "Partial value round trip", "statement": "When only marked fields of a structure are sent, the receiver's structure ends with exactly the marked fields (and the members of marked sub structures) replaced by the sender's contents and marked; every other field keeps its previous content and mark.", "quantifier": "every structure type with at most 65535 nodes, every value, every set of marks, every previous receiver content, both byte orders", "why_tests_cant": "all subsets of marks times all types", "anchors": ["src/dataencode.cpp:to_wire_valid", "src/dataencode.cpp:from_wire_valid"]}
{"id": "C15", "title": "Type cache refers to the definition the peer sent", "statement": "A type reference by key yields the type most recently sent under that key.", "quantifier": "every history of type definitions and references on a connection", "why_tests_cant": "unbounded histories", "anchors": ["src/dataencode.cpp:from_wire(types) 0xfd/0xfe", "src/dataimpl.h:TypeStore"]}
{"id": "C16", "title": "Marking laws", "statement": "After mark() a field reports marked and so do its enclosing unions; isMarked(parents, children) is true exactly when the field itself, one of its ancestors up to the enclosing structure (if parents) or one of its descendants (if children) was marked; unmark(parents, children) clears exactly those and nothing else.", "quantifier": "every structure type, every set of marks, every field, every flag combination", "why_tests_cant": "all subsets of marks times all types; relies on relative index arithmetic", "anchors": ["src/data.cpp:Value::mark", "src/data.cpp:Value::isMarked", "src/data.cpp:Value::unmark"]}
{"id": "C17", "title": "Iteration over marked fields", "statement": "imarked() of a structure visits, in declaration order and each once, exactly the fields inside it which are marked or lie inside a marked sub structure (the mark of the structure itself is not looked at).", "quantifier": "every structure type and every set of marks", "why_tests_cant": "all subsets of marks", "anchors": ["src/data.cpp:_next_marked", "src/data.cpp:Value::Iterable<_IMarked>"]}
{"id": "C18", "title": "Field lookup by name", "statement": "Looking up a dotted name finds a field exactly when the type has a field at that path, and finds that field; nameOf() of the field returns a name which looks up to the same field; '<' returns to the parent structure.", "quantifier": "every type built through the API, every field path, every expression string", "why_tests_cant": "all types times all strings", "anchors": ["src/data.cpp:Value::traverse", "src/data.cpp:Value::nameOf", "src/type.cpp:build_tree"]}
{"id": "C19", "title": "Scalar assignment and extraction", "statement": "Assigning an integer to an integer field stores it modulo the field width and reading it back as a type at least as wide gives the value unchanged when it fits; bool, string and integer conversions agree with their printed form; a failed conversion leaves the field unchanged and unmarked.", "quantifier": "every integer, every source and destination integer type, every string", "why_tests_cant": "2^64 values times all type pairs", "anchors": ["src/data.cpp:Value::copyIn", "src/data.cpp:Value::copyOut", "src/data.cpp:copyInScalar", "src/data.cpp:copyOutScalar", "src/util.cpp:parseTo"]}
{"id": "C20", "title": "Array element conversion", "statement": "Assigning an integer array to an integer array field of another width converts every element as the scalar conversion does, keeping order and length.", "quantifier": "every array content, every source/destination integer element type", "why_tests_cant": "unbounded arrays", "anchors": ["src/sharedarray.cpp:convertArr", "src/sharedarray.cpp:detail::copyAs"]}
{"id": "C21", "title": "assign() transfers exactly the marked fields", "statement": "After dst.assign(src) of two structures of the same type every source field which is marked, or lies in a marked sub structure, has the same content in dst and is marked there; other fields keep their content and mark in dst; clone() equals the original on marked fields and later changes to one are not seen through the other.", "quantifier": "every structure type, all values, all mark sets", "why_tests_cant": "all subsets of marks times all types", "anchors": ["src/data.cpp:Value::assign", "src/data.cpp:Value::clone", "src/data.cpp:Value::copyIn"]}
{"id": "C22", "title": "pvRequest field selection", "statement": "The mask computed from a client request selects the root, the whole structure when no fields are requested, and otherwise exactly the requested fields, their ancestors and all their descendants; unknown names are ignored unless nothing is left, in which case the request is rejected.", "quantifier": "every structure type and every requested set of field names", "why_tests_cant": "all types times all requests", "anchors": ["src/pvrequest.cpp:request2mask", "src/pvrequest.cpp:testmask"]}
{"id": "C23", "title": "Message reassembly does not depend on TCP segmentation", "statement": "The sequence of messages delivered to handlers is a function of the byte stream only, whatever the sizes of the individual reads.", "quantifier": "every byte stream and every way of splitting it into reads", "why_tests_cant": "all splittings of all streams", "anchors": ["src/conn.cpp:ConnBase::bevRead"]}
{"id": "C24", "title": "Segmented messages are joined", "statement": "A message sent as first, middle and last segments is delivered once, with the concatenation of the segment bodies; an out of place segment or a changed command ends the connection instead of being delivered.", "quantifier": "every sequence of framed messages and segments", "why_tests_cant": "all interleavings of segments", "anchors": ["src/conn.cpp:ConnBase::bevRead"]}
{"id": "C25", "title": "Server monitor queue: order, bound and no loss of latest value", "statement": "What a subscriber is sent is a merge respecting subsequence of what was posted: updates leave in the order posted, the queue never exceeds its limit except through forcePost, a post reports whether there is room for another update, tryPost into a full queue has no effect, and an update which could not be queued is merged into the newest queued update.", "quantifier": "every interleaving of posts, acknowledgements, starts/stops and replies, every limit", "why_tests_cant": "all schedules of producer and network", "anchors": ["src/servermon.cpp:MonitorOp::doPost", "src/servermon.cpp:MonitorOp::doReply", "src/servermon.cpp:MonitorOp::maybeReply"]}
{"id": "C26", "title": "Subscriber converges to the posted state", "statement": "When the server's queue has drained, the subscriber's accumulated view of the requested fields equals the result of applying all posts in order, no matter how many updates were squashed in between.", "quantifier": "every structure type, every sequence of partial updates, every schedule of squashing", "why_tests_cant": "all schedules", "anchors": ["src/servermon.cpp:MonitorOp::doPost", "src/clientmon.cpp:SubscriptionImpl", "src/data.cpp:cache_sync"]}
{"id": "C27", "title": "Monitor flow control window", "statement": "With pipelining the server never has more un-acknowledged updates outstanding than the client granted, and the end of the subscription is only announced after all queued updates.", "quantifier": "every interleaving of posts, acks, start/stop, finish", "why_tests_cant": "all schedules", "anchors": ["src/servermon.cpp:MonitorOp::doReply", "src/servermon.cpp:handle_MONITOR"]}
{"id": "C28", "title": "A stalled subscription resumes when the client acknowledges", "statement": "If updates are queued, the subscription is running and the client grants window, the queued updates are sent without waiting for a further post.", "quantifier": "every reachable state of a pipelined subscription", "why_tests_cant": "liveness over all schedules", "anchors": ["src/servermon.cpp:handle_MONITOR", "src/servermon.cpp:MonitorOp::maybeReply"]}
{"id": "C29", "title": "SharedPV subscribers are isolated from each other", "statement": "The updates delivered to one subscriber of a SharedPV depend only on the sequence of posts and on that subscriber's own consumption, not on how slow other subscribers are.", "quantifier": "every number of subscribers, every sequence of posts, every consumption schedule", "why_tests_cant": "needs several subscribers at different speeds; all schedules", "anchors": ["src/sharedpv.cpp:SharedPV::post", "src/servermon.cpp:MonitorOp::doPost"]}
{"id": "C30", "title": "SharedPV subscriber does not miss an update while connecting", "statement": "A subscriber of an open SharedPV receives the value current when it was attached and every later post.", "quantifier": "every interleaving of the connecting thread with posting threads", "why_tests_cant": "a race between two threads", "anchors": ["src/sharedpv.cpp:SharedPV::Impl::connectSub", "src/sharedpv.cpp:SharedPV::post"]}
{"id": "C31", "title": "SharedPV first/last connect notifications alternate", "statement": "onFirstConnect and onLastDisconnect are invoked strictly alternately, starting with onFirstConnect, and onLastDisconnect only when no channel remains.", "quantifier": "every sequence of attach and disconnect of channels", "why_tests_cant": "all histories", "anchors": ["src/sharedpv.cpp:SharedPV::attach", "src/sharedpv.cpp:SharedPV::close"]}
{"id": "C32", "title": "Server answers every execute exactly once", "statement": "For each GET/PUT/RPC execute request accepted by the server at most one reply is sent, and replies by a handler after the first, after cancel, or after disconnect are ignored.", "quantifier": "every sequence of client messages, handler replies, cancels and disconnects, for every number of operations", "why_tests_cant": "all interleavings of network and handler threads", "anchors": ["src/serverget.cpp:ServerGPR::doReply", "src/serverget.cpp:handle_GPR", "src/serverget.cpp:ServerGPRExec", "src/serverconn.cpp:ServerOp::cleanup"]}
{"id": "C33", "title": "Operation close notification", "statement": "For every operation established on the server the onClose callback runs exactly once when the operation ends, whichever way it ends, and the request ID becomes usable again.", "quantifier": "every way an operation can end, every sequence of messages", "why_tests_cant": "all histories", "anchors": ["src/serverconn.cpp:ServerOp::cleanup", "src/serverget.cpp:ServerGPR::doReply", "src/serverconn.cpp:handle_DESTROY_REQUEST"]}
{"id": "C34", "title": "Channel and request identifiers are never confused", "statement": "Identifiers handed out for channels (SID, CID) and requests (IOID) differ from all identifiers in use on that connection, also after the 32 bit counter wraps.", "quantifier": "every set of identifiers in use smaller than 2^32, every counter position", "why_tests_cant": "wrap around after 2^32 allocations", "anchors": ["src/serverchan.cpp:handle_CREATE_CHANNEL", "src/client.cpp:Channel::createOperations", "src/client.cpp:Channel::build"]}
{"id": "C35", "title": "A destroyed channel is gone", "statement": "After a channel was destroyed by the client or closed by the server, requests naming it are refused and it is no longer kept by the connection.", "quantifier": "every sequence of channel creations, destructions and requests", "why_tests_cant": "all histories", "anchors": ["src/serverchan.cpp:handle_DESTROY_CHANNEL", "src/serverchan.cpp:ServerChan::cleanup", "src/serverconn.cpp:ServerConn::lookupSID"]}
{"id": "C36", "title": "Client subscription wake-ups are never lost", "statement": "Whenever the client event queue goes from empty to non empty the event callback is invoked; a consumer that pops until empty after each callback sees every event; events come out in arrival order.", "quantifier": "every interleaving of arrivals, pops, pauses, disconnects", "why_tests_cant": "all schedules of worker and consumer", "anchors": ["src/clientmon.cpp:SubscriptionImpl::doPop", "src/clientmon.cpp:SubscriptionImpl::handle_MONITOR", "src/clientmon.cpp:wantToNotify"]}
{"id": "C37", "title": "Client operation result is delivered once", "statement": "The result callback of a GET/PUT/RPC/INFO operation is invoked at most once, never after cancel() returned, and the operation reaches its final state with it.", "quantifier": "every sequence of server messages, disconnects, cancels and re-executions", "why_tests_cant": "all histories", "anchors": ["src/clientget.cpp:GPROp::notify", "src/clientget.cpp:handle_GPR", "src/clientintrospect.cpp:InfoOp"]}
{"id": "C38", "title": "A PUT is executed at most once", "statement": "A PUT or RPC issued once by the application is sent to a server for execution at most once.", "quantifier": "every sequence of connects, disconnects and replies", "why_tests_cant": "depends on the instant of a disconnect", "anchors": ["src/clientget.cpp:GPROp::disconnected", "src/clientget.cpp:GPROp::sendReply"]}
{"id": "C39", "title": "Searching never starves a channel", "statement": "A channel being searched for stays scheduled and is searched again within a bounded number of search intervals until it connects.", "quantifier": "every number of channels, every assignment to search slots, every tick", "why_tests_cant": "unbounded number of channels and ticks", "anchors": ["src/client.cpp:ContextImpl::tickSearch"]}
{"id": "C40", "title": "Beacon tracking", "statement": "The client reports a server once when it is first seen or changes, ignores repeated beacons, reports a timeout only after it was silent for the timeout, and never tracks more than the limit.", "quantifier": "every sequence of beacons and clock ticks", "why_tests_cant": "all histories", "anchors": ["src/client.cpp:ContextImpl::onBeacon", "src/client.cpp:ContextImpl::tickBeaconClean"]}
{"id": "C41", "title": "UDP search parsing is exact and safe", "statement": "Every search request datagram is decoded to exactly the names and identifiers it contains; a malformed datagram is ignored without touching memory outside of it.", "quantifier": "every datagram", "why_tests_cant": "attacker controlled input", "anchors": ["src/udp_collector.cpp:UDPCollector::process_one"]}
{"id": "C42", "title": "Event loop work queue", "statement": "Actions dispatched to an event loop run exactly once, in the order in which they were dispatched by any one thread, and call() returns only after its action ran.", "quantifier": "every interleaving of dispatching threads and the worker", "why_tests_cant": "all schedules", "anchors": ["src/evhelper.cpp:evbase::_dispatch", "src/evhelper.cpp:evbase::_call", "src/evhelper.cpp:doWork"]}
{"id": "C43", "title": "Escaping is unambiguous", "statement": "The escaped form of a string contains only printable ASCII and different strings have different escaped forms.", "quantifier": "every byte string", "why_tests_cant": "infinitely many strings", "anchors": ["src/util.cpp:Escaper"]}
{"id": "C44", "title": "Number parsing inverts printing and rejects junk", "statement": "Parsing the decimal text of an integer gives the integer; text with trailing garbage or out of range is refused.", "quantifier": "every 64 bit integer, every string", "why_tests_cant": "2^64 values", "anchors": ["src/util.cpp:parseTo"]}
{"id": "C45", "title": "Field name validation", "statement": "A name is accepted by the TypeDef API exactly when it is a C identifier.", "quantifier": "every string", "why_tests_cant": "infinitely many strings", "anchors": ["src/type.cpp:name_validate"]}
{"id": "C46", "title": "pvRequest expression parser", "statement": "Parsing a request expression always terminates, either with the fields and options written in it or with an error naming the position; formatting a list of fields and parsing it back gives the same list.", "quantifier": "every expression string", "why_tests_cant": "infinitely many strings", "anchors": ["src/clientreq.cpp:PVRParser"]}
{"id": "C47", "title": "Sources are consulted in priority order", "statement": "A channel is created by the first source, in ascending (priority, name) order, which accepts it; adding a source under a taken key is refused and removing restores the previous behaviour.", "quantifier": "every set of sources, every history of add and remove", "why_tests_cant": "all histories", "anchors": ["src/server.cpp:Server::addSource", "src/serverchan.cpp:handle_CREATE_CHANNEL"]}
{"id": "C48", "title": "Logger level configuration", "statement": "The level of a logger is that of the most recently configured pattern matching its name, whether the logger was created before or after the configuration.", "quantifier": "every history of configuration calls and logger creations", "why_tests_cant": "all histories", "anchors": ["src/log.cpp:logger_init", "src/log.cpp:logger_level_set"]}
{"id": "C49", "title": "Timeout normalisation", "statement": "Whatever timeout the configuration contains, the effective TCP timeout is a usable finite number of seconds not below the protocol minimum.", "quantifier": "every configured number", "why_tests_cant": "all doubles", "anchors": ["src/config.cpp:enforceTimeout"]}
{"id": "C50", "title": "Address list de-duplication", "statement": "De-duplicating an address list keeps every distinct destination, each exactly once, in order of first appearance and with the longest time to live requested for it.", "quantifier": "every list of endpoints", "why_tests_cant": "unbounded lists", "anchors": ["src/config.cpp:removeDups"]}
{"id": "C51", "title": "Socket address wire round trip", "statement": "An IPv4 or IPv6 address written in the 16 byte wire form is read back as the same address.", "quantifier": "every IPv4 address and every IPv6 address", "why_tests_cant": "2^128 addresses", "anchors": ["src/evhelper.cpp:to_wire(SockAddr)", "src/evhelper.cpp:from_wire(SockAddr)"]}
{"id": "C52", "title": "First result wins when waiting for an operation", "statement": "Operation::wait() returns the first result delivered to the operation, unless interrupted or timed out before; every thread waiting is released.", "quantifier": "every interleaving of complete(), interrupt and any number of waiters", "why_tests_cant": "all schedules", "anchors": ["src/client.cpp:ResultWaiter"]}
{"id": "C53", "title": "Extending a type definition", "statement": "TypeDef += with members adds new members at the end in order, merges members of the same name recursively and never reorders or drops existing members; the new definition is rebuilt consistently.", "quantifier": "every type tree, every list of additional members", "why_tests_cant": "infinitely many types", "anchors": ["src/type.cpp:TypeDef::_append"]}
{"id": "C54", "title": "Type equality is an equivalence", "statement": "equalType() is reflexive, symmetric and true exactly for types with the same shape, field names and field codes.", "quantifier": "every pair of types", "why_tests_cant": "infinitely many types", "anchors": ["src/data.cpp:Value::_equal"]}
{"id": "C55", "title": "Delta cache synchronisation", "statement": "After synchronising a received partial update with the cached complete value, both hold the same complete contents: marked fields from the update, all others from the cache; marks of the update are unchanged.", "quantifier": "every type, every value, all mark sets", "why_tests_cant": "all subsets of marks", "anchors": ["src/data.cpp:cache_sync"]}
{"id": "C56", "title": "Encoders respect the space they are given", "statement": "No encoder ever writes beyond the space of a fixed size output buffer, and when the buffer is good after encoding, the encoding is complete: the same bytes as an unlimited buffer would have received.", "quantifier": "every value, every buffer size, both byte orders", "why_tests_cant": "all pairs of values and buffer sizes", "anchors": ["src/pvaproto.h:FixedBuf", "src/pvaproto.h:to_wire"]}
{"id": "C57", "title": "Bit mask algebra", "statement": "An expression of masks of equal size with !, & and | has, evaluated, exactly the bits of the logical combination; operands of different size are refused; == holds exactly for masks of the same size with the same bits.", "quantifier": "every expression over masks of every size", "why_tests_cant": "unbounded expressions and sizes", "anchors": ["src/bitmask.h:BitNot", "src/bitmask.h:BitAnd", "src/bitmask.h:BitOr", "src/bitmask.cpp:operator=="]}
{"id": "C58", "title": "Line difference is faithful", "statement": "The difference of two texts lists the lines of both in order: leaving out the added lines gives the first text, leaving out the removed ones the second; equal texts show no difference, different texts always show one.", "quantifier": "every pair of lists of lines", "why_tests_cant": "all pairs of texts; the search order depends on both", "anchors": ["src/util.cpp:strDiff"]}
{"id": "C59", "title": "Line splitting", "statement": "Splitting a text into lines terminates and gives the lines between line ends.", "quantifier": "every text", "why_tests_cant": "all texts, including mixed line ends", "anchors": ["src/util.cpp:splitLines"]}
{"id": "C60", "title": "clear() restores the initial state", "statement": "After clear() of a field, it and every field inside it hold the default of a newly created value and are unmarked; every other field keeps its content and mark.", "quantifier": "every type, every value of it, every field", "why_tests_cant": "infinitely many types and values", "anchors": ["src/data.cpp:Value::clear", "src/data.cpp:FieldStorage::init"]}
{"id": "C61", "title": "Iteration over fields", "statement": "iall() of a structure visits exactly the fields inside it at any depth, and ichildren() exactly its members, each once and in declaration order.", "quantifier": "every type and every structure in it", "why_tests_cant": "infinitely many types", "anchors": ["src/data.cpp:Value::IterIAll", "src/data.cpp:Value::IterIChildren", "src/pvxs/data.h:Iterable"]}
{"id": "C62", "title": "Subscription statistics", "statement": "MonitorControlOp::stats() reports whether the subscription is running and finished, the number of updates queued now, the largest number queued, the limit, the window and the number of updates merged since the last reset.", "quantifier": "every subscription and every sequence of posts, messages and resets", "why_tests_cant": "counters must agree with the history for every interleaving", "anchors": ["src/servermon.cpp ServerMonitorControl::stats", "src/pvxs/source.h MonitorStat"]}
{"id": "C63", "title": "Pipelined subscriptions neither stall nor overrun", "statement": "With pipelining, a client never stops acknowledging: when the server has used up its window and the user has popped everything, an acknowledgement is on its way. Acknowledgements never exceed the updates popped, so that no more than queueSize updates are queued; ackAny as a percentage is a percentage of the queue size.", "quantifier": "every sequence of updates, pops, pauses, losses of connection and timer ticks; every queue size and threshold", "why_tests_cant": "flow control depends on the whole history of both sides", "anchors": ["src/clientmon.cpp:SubscriptionImpl::tickAck", "src/clientmon.cpp:SubscriptionImpl::_pop", "src/clientmon.cpp:MonitorBuilder::exec"]}
{"id": "C64", "title": "Connection events of subscriptions", "statement": "A subscription reports Connected and Disconnect strictly in turn, starting with Connected; those masked by maskConnected() and maskDisconnected() are not reported, and Finished neither if disconnects are masked.", "quantifier": "every sequence of connects, losses and updates", "why_tests_cant": "all histories of the connection", "anchors": ["src/clientmon.cpp:SubscriptionImpl::createOp", "src/clientmon.cpp:SubscriptionImpl::disconnected", "src/pvxs/client.h:MonitorBuilder::maskDisconnected"]}
{"id": "C65", "title": "Cancelling an operation does not disturb others", "statement": "Cancelling a client operation or subscription, at any time, does not make the client end the TCP connection, which it shares with other channels of the same server.", "quantifier": "every operation, every moment of cancel() relative to messages of a server which keeps to the protocol", "why_tests_cant": "the race of cancel() with a reply on its way", "anchors": ["src/clientmon.cpp:Connection::handle_MONITOR", "src/clientget.cpp:Connection::handle_GPR", "src/clientget.cpp:GPROp::_cancel"]}
{"id": "C66", "title": "Operations may be given up at any time", "statement": "cancel() of an operation, and dropping its handle, is safe at any time, also from callbacks such as onDisconnect(), whatever the state of its channel.", "quantifier": "every operation, every moment, every history of the channel", "why_tests_cant": "crashes only in a window of a few calls inside the handling of a disconnect", "anchors": ["src/clientget.cpp:GPROp::_cancel", "src/client.cpp:Channel::disconnect"]}
{"id": "C67", "title": "What a PUT sends", "statement": "A PUT operation sends the value its builder returned; the builder was given a value of the type the server announced, with fetchPresent holding the present value.", "quantifier": "every sequence of replies, losses of connection and reconnects", "why_tests_cant": "all histories, types and values", "anchors": ["src/clientget.cpp:GPROp::sendReply", "src/clientget.cpp:Connection::handle_GPR", "src/pvxs/client.h:PutBuilder::fetchPresent"]}
{"id": "C68", "title": "Configuration survives being written out", "statement": "A server or client configuration written as definitions and read into a fresh configuration gives the same ports, flags and sets of addresses; a server specific definition takes precedence over the general one.", "quantifier": "every configuration with normalised addresses, every set of other definitions", "why_tests_cant": "all address lists and definition maps", "anchors": ["src/config.cpp:_fromDefs", "src/config.cpp:Config::updateDefs", "src/config.cpp:PickOne", "src/config.cpp:join_addr"]}
{"id": "C69", "title": "Configured port numbers are honoured", "statement": "A port number given as text is used as given, or refused with the earlier value kept; it never becomes a different port.", "quantifier": "every text", "why_tests_cant": "all texts", "anchors": ["src/config.cpp:_fromDefs", "src/util.cpp:parseTo<uint64_t>"]}
{"id": "C70", "title": "Address lists are read completely", "statement": "The addresses in effect after reading a list are the earlier ones and every word of the text which is a valid address, each once; an invalid word is skipped without affecting the others, or refused by exception for the lists which must be valid.", "quantifier": "every text, every earlier list", "why_tests_cant": "all texts", "anchors": ["src/config.cpp:split_addr_into"]}
{"id": "C71", "title": "Search messages are well formed and bounded", "statement": "Every message a client sends to search for channels, by broadcast, to one address or to a name server, is in the format of the protocol and holds exactly the identifiers and names it searches for; it is at most 1400 bytes, unless it holds a single name.", "quantifier": "every history of channels and timers, every name", "why_tests_cant": "unbounded histories and names", "anchors": ["src/client.cpp:ContextImpl::tickSearch"]}
{"id": "C72", "title": "Searching finds what servers claim", "statement": "A search sent by a client and received by a server, whether broadcast, sent to one address or through a name server, is answered if and only if a source claims one of the names; on receipt of the answer the client takes exactly the claimed channels, which it is still searching for, to be at that server. A discovery ping is answered by every server.", "quantifier": "every history of the client, every set of sources, both byte orders", "why_tests_cant": "all combinations of histories and sources", "anchors": ["src/client.cpp:ContextImpl::tickSearch", "src/client.cpp:procSearchReply", "src/server.cpp:Server::Pvt::onSearch", "src/serverchan.cpp:ServerConn::handle_SEARCH", "src/udp_collector.cpp:UDPCollector::process_one"]}
{"id": "C73", "title": "Hurrying searches", "statement": "hurryUp(), or the appearance of a new server, makes the client search promptly for everything it is searching for, but at most once in 30 seconds however often and by whatever it is caused.", "quantifier": "every history of calls, beacons, timers and clock readings", "why_tests_cant": "all interleavings of calls and beacons over time", "anchors": ["src/client.cpp:ContextImpl::poke", "src/client.cpp:ContextImpl::onBeacon", "src/client.cpp:ContextImpl::tickSearchS"]}
{"id": "C74", "title": "Discovery reaches every operation", "statement": "Each discover() operation in progress is told of the servers which are present, and of each appearance or disappearance until it is cancelled; operations which are not in progress are told nothing.", "quantifier": "every history of operations, beacons and timers", "why_tests_cant": "all histories", "anchors": ["src/clientdiscover.cpp:ContextImpl::serverEvent", "src/clientdiscover.cpp:DiscoverBuilder::exec", "src/clientdiscover.cpp:Discovery::cancel"]}
{"id": "C75", "title": "Lookup expressions", "statement": "An expression of names, '<', '->member', '->' and '[index]' finds a field exactly if following these steps from the starting field leads to one, and finds that one; looking through a const Value changes nothing, otherwise at most the Unions named on the way change their selection and no mark changes; a lookup which finds nothing changes nothing, gives an empty Value from operator[] and an exception from lookup(); no expression, however malformed, on any value, also one decoded from hostile input, leads to undefined behaviour or a loop without end.", "quantifier": "every value, starting field and expression string", "why_tests_cant": "all strings times all values, nested to any depth", "anchors": ["src/data.cpp:Value::traverse", "src/data.cpp:Value::operator[]", "src/data.cpp:Value::lookup"]}
{"id": "C76", "title": "Requests arrive", "statement": "What a client writes for each request (create channel, introspect, the INIT and execution of GET, PUT and RPC, subscribe, pipeline acknowledgement, pause, resume, cancel, destroy, close channel, authentication) is understood by a server of either byte order as that very request with the same identifiers, options and values, leaves the server's type cache as it was, and is never acted upon when its end is missing.", "quantifier": "every request, identifier, value, type, byte order of client, server and connection, and every cut", "why_tests_cant": "all values of all types and all message truncations", "anchors": ["src/clientget.cpp:GPROp", "src/clientmon.cpp:SubscriptionImpl", "src/clientreq.cpp", "src/serverget.cpp:handle_GPR", "src/servermon.cpp:handle_MONITOR", "src/serverchan.cpp:handle_CREATE_CHANNEL", "src/serverintrospect.cpp:handle_GET_FIELD", "src/serverconn.cpp:handle_CONNECTION_VALIDATION"]}
{"id": "C77", "title": "Replies arrive", "statement": "What a server writes in reply (success or error of each request, types, values, subscription updates, end of a subscription, channel created or closed) is understood by the client as that very reply: an error with its text and without value, a type as an unmarked Value with defaults, a value or update as a new Value holding exactly the marked and requested fields; a message of which the end is missing is never acted upon.", "quantifier": "every reply, identifier, value, type, set of marks, request mask, byte order and cut", "why_tests_cant": "all values of all types and all message truncations", "anchors": ["src/serverget.cpp:ServerGPR::doReply", "src/servermon.cpp:MonitorOp::doReply", "src/serverintrospect.cpp:ServerIntrospect::doReply", "src/clientget.cpp:handle_GPR", "src/clientmon.cpp:handle_MONITOR", "src/clientintrospect.cpp:handle_GET_FIELD", "src/clientconn.cpp:handle_CREATE_CHANNEL"]}
{"id": "C78", "title": "Updates are cumulative", "statement": "However many updates of a subscription (or results of a GET executed again) a server sends, each Value the client gets marks exactly the fields that update carried, and holds in every field, marked or not, what was last sent of it, or its default if it never was.", "quantifier": "every sequence of updates of every length, every type, set of marks and request mask", "why_tests_cant": "histories of any length", "anchors": ["src/clientmon.cpp:handle_MONITOR", "src/clientget.cpp:handle_GPR", "src/data.cpp:cache_sync", "src/servermon.cpp:MonitorOp::doReply"]}
{"id": "C79", "title": "Authentication", "statement": "A client selects \"ca\" whenever a server offers it, else \"anonymous\"; a server takes a client for the user it named with \"ca\", else for anonymous, and for nobody else whatever and however often the client sends; a client which authenticates anew is taken for what its last message says.", "quantifier": "every list of offered methods, every user name and every history of authentication messages", "why_tests_cant": "all histories of messages", "anchors": ["src/clientconn.cpp:handle_CONNECTION_VALIDATION", "src/serverconn.cpp:handle_CONNECTION_VALIDATION", "src/serverconn.cpp:ServerConn"]}
{"id": "C80", "title": "Hostile messages", "statement": "Whatever bytes a peer sends as the body of any message, of any command, the receiver acts on it, ignores it, or closes the connection; no undefined behaviour, no endless recursion, and every Value handed to the application is fit for use.", "quantifier": "every command, body, set of open operations and type cache reachable from earlier messages", "why_tests_cant": "all byte strings", "anchors": ["src/serverget.cpp:handle_GPR", "src/servermon.cpp:handle_MONITOR", "src/serverchan.cpp:handle_CREATE_CHANNEL", "src/clientget.cpp:handle_GPR", "src/clientmon.cpp:handle_MONITOR", "src/conn.cpp:bevRead"]}
{"id": "C81", "title": "Standard types have their standard layout", "statement": "For every choice of parameters, TimeStamp, Alarm, NTScalar, NTEnum, NTTable, NTNDArray and NTURI give the structure the normative types specification describes, with all its fields and no others, or refuse by exception parameters for which there is none; the columns of a table and the arguments of a URI appear in the order they were given, create() of a table sets its labels, and call() of a URI stores the arguments given in that order and refuses more than there are.", "quantifier": "every type code and combination of options, every list of columns and of arguments, every list of values", "why_tests_cant": "unbounded lists of columns and arguments", "anchors": ["src/nt.cpp", "src/pvxs/nt.h:NTURI"]}
{"id": "C82", "title": "Names of group fields", "statement": "A field name of a group, words separated by dots each with an optional subscript, is understood as exactly these words and subscripts; printing a name and reading it back gives the same name; empty words, an unmatched ']' and a subscript which is not a number are refused; a subscript is never taken for another one.", "quantifier": "every text, every list of components", "why_tests_cant": "all texts and all subscripts", "anchors": ["ioc/fieldname.cpp:FieldName::FieldName", "ioc/fieldname.cpp:operator<<"]}
{"id": "C83", "title": "Options of groups", "statement": "After reading the group definitions of all records and all files given to dbLoadGroup(), each option of each group and field has the value last told, or its default; records give channels relative to themselves; an option value which does not suit is reported and nothing stops the process; the iocsh command and the function dbLoadGroup() keep the files in order, replace a file loaded again with the same macros, and forget files on request.", "quantifier": "every set of documents, every order and nesting, every value", "why_tests_cant": "all documents", "anchors": ["ioc/groupconfigprocessor.cpp:parseConfigString", "ioc/groupprocessorcontext.cpp:GroupProcessorContext::assign", "ioc/groupsourcehooks.cpp:dbLoadGroup"]}
{"id": "C84", "title": "Order and triggers of group fields", "statement": "A group is defined exactly if each field mapped to a record names a channel; its fields are ordered by +putorder, then by name; a field triggers exactly the fields with a channel it lists, all of them for '*', and itself if the group lists no triggers at all.", "quantifier": "every configuration", "why_tests_cant": "all sets of fields, orders and trigger lists", "anchors": ["ioc/groupconfigprocessor.cpp:validateGroups", "ioc/groupconfigprocessor.cpp:defineFields", "ioc/groupconfigprocessor.cpp:resolveTriggerReferences"]}
{"id": "C85", "title": "Creation of groups", "statement": "From definitions all of whose fields can be made, the server makes exactly the described groups not named as a record is, with the described fields in order, each bound to its channel and its triggers to the right fields; a group with a field that cannot be made is not served, and never harms the process.", "quantifier": "every set of documents and every database", "why_tests_cant": "all configurations and databases", "anchors": ["ioc/groupconfigprocessor.cpp:createGroups", "ioc/groupconfigprocessor.cpp:initialiseTriggers", "ioc/field.cpp:Field::Field"]}
{"id": "C86", "title": "Types of groups", "statement": "The type of a group has the id given, and at the path of each field the type its mapping asks for: a Normative type for scalar, the bare type of the channel for plain, Any for any, alarm and time for meta, the type of the constant for const, a structure with the given id for structure.", "quantifier": "every group configuration and database in which no two fields use one path", "why_tests_cant": "all sets of fields and nestings", "anchors": ["ioc/groupconfigprocessor.cpp:initialiseValueTemplate", "ioc/groupconfigprocessor.cpp:setFieldTypeDefinition", "ioc/iocsource.cpp:getChannelValueType"]}
{"id": "C87", "title": "PUT to a group", "statement": "A PUT to a group writes only channels of fields the client sent, only what was sent, only when access security lets that client write that channel, in the order of the fields, each under the lock of its record and all under one lock if atomic; if it succeeds every field sent was written, and if something sent may not be written it fails and writes nothing.", "quantifier": "every group, request option, client, content sent and behaviour of the database and of other threads", "why_tests_cant": "all groups and all interleavings with records", "anchors": ["ioc/groupsource.cpp:GroupSource::putGroup", "ioc/groupsource.cpp:putGroupField", "ioc/iocsource.cpp:IOCSource::put", "ioc/iocsource.cpp:IOCSource::doPreProcessing"]}
{"id": "C88", "title": "GET of a group", "statement": "A GET of a group changes nothing, succeeds when the database answers, and shows every field; if atomic all fields are as they were at one moment, else each field is of one moment.", "quantifier": "every group, request option and behaviour of other threads on records not locked", "why_tests_cant": "all interleavings of record updates", "anchors": ["ioc/groupsource.cpp:GroupSource::get", "ioc/groupsource.cpp:getGroupField", "ioc/iocsource.cpp:IOCSource::get"]}
{"id": "C89", "title": "MONITOR of a group", "statement": "The first update of a subscription to a group comes when each of its channels has been read, and shows all fields; after that each event is posted at once with what its triggers say and nothing else, as it was at one moment; nothing is lost.", "quantifier": "every group, every history of events and behaviour of other threads", "why_tests_cant": "all histories of events", "anchors": ["ioc/groupsource.cpp:onSubscribe", "ioc/groupsource.cpp:subscriptionPost", "ioc/groupsource.cpp:subscriptionValueCallback", "ioc/groupsource.cpp:subscriptionPropertiesCallback"]}
{"id": "C90", "title": "Single PVs", "statement": "A PUT to a record does nothing unless permitted, writes only what was sent to that channel, under the lock of the record; a GET changes nothing and shows one moment; the first update of a subscription comes when value and properties are known and no event is lost; GET and MONITOR show the same.", "quantifier": "every channel, option, content sent, history of events and behaviour of other threads", "why_tests_cant": "all histories and interleavings", "anchors": ["ioc/singlesource.cpp:singleGet", "ioc/singlesource.cpp:onOp", "ioc/singlesource.cpp:subscriptionCallback", "ioc/iocsource.cpp:IOCSource::put"]}
{"id": "C91", "title": "Records and Values", "statement": "Value, alarm, time and properties of a record appear unchanged in the members for them, and what is sent for the value is what is written to the record, or the operation fails.", "quantifier": "every type of channel, number of elements, content and state of the record", "why_tests_cant": "all contents of all types", "anchors": ["ioc/iocsource.cpp:IOCSource::get", "ioc/iocsource.cpp:getTimeAlarm", "ioc/iocsource.cpp:getProperties", "ioc/iocsource.cpp:putScalar", "ioc/iocsource.cpp:putArray"]}
{"id": "C92", "title": "Names for access security", "statement": "Access security is asked for a client by its host and by its account or, for other methods than \"ca\", method and account, and by its roles; a client of method \"ca\" cannot choose an account which passes for a role or for the account of another method.", "quantifier": "every client", "why_tests_cant": "all account names", "anchors": ["ioc/credentials.cpp:Credentials::Credentials", "ioc/securityclient.cpp:SecurityClient::canWrite"]}
{"id": "C93", "title": "Shared arrays", "statement": "The elements of a constant shared_array never change while a program holds it, whatever it does with copies, parts and casts of it; freeze() succeeds exactly for the only reference; thaw(), resize() and make_unique() give an array nobody else refers to, with the elements; elements are only seen at the type they were made with; at() gives the element or throws; a moved or frozen or thawed array is left empty.", "quantifier": "every history of operations on any number of variables", "why_tests_cant": "all histories of operations", "anchors": ["src/pvxs/sharedArray.h:shared_array", "src/sharedarray.cpp:allocArray", "src/sharedarray.cpp:convertArr"]}
{"id": "C94", "title": "Processing of records by PUT", "statement": "A PUT lets a record process exactly once after its write: if the field is PROC, or the client asked for it with record._options.process, or left the choice and the field and the record are passive; with process=false nothing processes; an active record is asked to process again instead; the record of a member mapped as proc processes with each PUT of its group; all of this between the lock and unlock of the records.", "quantifier": "every group, PV, request and database", "why_tests_cant": "all groups, requests, and states of the records", "anchors": ["ioc/iocsource.cpp:doPostProcessing", "ioc/iocsource.cpp:setForceProcessingFlag", "ioc/groupsource.cpp:putGroupField", "ioc/singlesource.cpp:onOp"]}
{"id": "C95", "title": "A client does not crash", "statement": "No assertion of the channel and connection code of a client fails, and no null pointer is used, whatever the application calls, servers send and the network does, in any order.", "quantifier": "every history of calls, messages, timers and losses", "why_tests_cant": "all interleavings of events of many channels and connections", "anchors": ["src/client.cpp:Channel", "src/clientconn.cpp:Connection", "src/clientconn.cpp:cleanup"]}
{"id": "C96", "title": "A waiting operation is never forgotten", "statement": "While a context is open and attempts to connect do not fail at once, the client has always something under way for each channel in use: a search, a connection attempt or a timer for one, or a request to the server; and from each state events of the network exist after which a waiting operation runs.", "quantifier": "every reachable state, every channel in use", "why_tests_cant": "liveness from all reachable states", "anchors": ["src/client.cpp:Channel", "src/clientconn.cpp:Connection", "src/client.cpp:onNSCheck", "src/clientconn.cpp:tickEcho"]}
{"id": "C97", "title": "What an operation is told", "statement": "An operation is started once when its channel gets connected; after a disconnect it waits and is started again, or ends with an error if it cannot be repeated; nothing is told after its end; it is not forgotten until the application releases it.", "quantifier": "every operation in every history", "why_tests_cant": "all histories of events", "anchors": ["src/client.cpp:Channel", "src/clientconn.cpp:Connection", "src/client.cpp:createOperations", "src/clientget.cpp:disconnected"]}
{"id": "C98", "title": "What a Connect handle tells", "statement": "Callbacks onConnect and onDisconnect come in turn, never one twice in sequence; the last is true of the state of the channel; a handle works until it is released.", "quantifier": "every handle in every history", "why_tests_cant": "all histories of events", "anchors": ["src/client.cpp:ConnectBuilder", "src/client.cpp:Channel"]}
{"id": "C99", "title": "Loss of connection and channels", "statement": "When a connection is lost, a server destroys a channel or the application disconnects it, exactly the channels concerned are disconnected and all their running operations are told; other channels and their operations go on.", "quantifier": "every reachable state and event", "why_tests_cant": "all states of many channels", "anchors": ["src/client.cpp:Channel", "src/clientconn.cpp:Connection", "src/client.cpp:cacheClean"]}
{"id": "C100", "title": "Sharing of channels and connections", "statement": "Operations for one PV (and given server) share one channel while one of them is in use, never those for different PVs; cacheClear(Drop) and (Disconnect) prevent reuse; one connection is used for each server.", "quantifier": "every history", "why_tests_cant": "all histories of events", "anchors": ["src/client.cpp:Channel", "src/clientconn.cpp:Connection", "src/client.cpp:cacheClean", "src/clientconn.cpp:build"]}
{"id": "C101", "title": "A closed client is silent", "statement": "After close() running operations have been told, and whatever happens then no message is sent, no connection made, no operation started and no handle tells a connection.", "quantifier": "every history before and after close()", "why_tests_cant": "all histories of events", "anchors": ["src/client.cpp:close", "src/client.cpp:Channel", "src/clientconn.cpp:cleanup"]}
{"id": "C102", "title": "Options of a PVA link", "statement": "Each option of a PVA link has the value of the last member of the JSON map which sets it to something with a meaning, else its documented default; members of nested maps do not count.", "quantifier": "every JSON map", "why_tests_cant": "all maps with any members in any order", "anchors": ["ioc/pvalink_jlif.cpp:pva_parse_string", "ioc/pvalink_jlif.cpp:pva_parse_integer"]}
{"id": "C103", "title": "Reading through a PVA link", "statement": "A record which reads a PVA link gets the value after all updates which were taken, of the field which the link names, converted to the type it asks for, with the time of the value if the option says so and an alarm as the option sevr says; while the PV is not connected the read fails with an INVALID alarm.", "quantifier": "every history of updates, disconnects and calls; every value, field and type", "why_tests_cant": "all histories and values", "anchors": ["ioc/pvalink_lset.cpp:pvaGetValue", "ioc/pvalink_link.cpp:onTypeChange", "ioc/pvalink_channel.cpp:run"]}
{"id": "C104", "title": "Processing on updates of a PVA link", "statement": "Each update of a PV is taken once and in order; with each, the records of all links with the option CP (or CPP if they are passive) are processed in the order of monorder, those with atomic while all of them are locked.", "quantifier": "every history, any number of links and PVs", "why_tests_cant": "all schedules of updates, links opened and removed", "anchors": ["ioc/pvalink_channel.cpp:run", "ioc/pvalink_channel.cpp:scan", "ioc/pvalink_link.cpp:scanOnUpdate"]}
{"id": "C105", "title": "Writing through a PVA link", "statement": "A value which a record writes is accepted while connected or with the option retry, is kept until the server is ready and then sent at the place which the link names with the option process which the links ask for; a record which waits is completed when the result has come, and not before.", "quantifier": "every history of writes, results, disconnects", "why_tests_cant": "all schedules of records and of the network", "anchors": ["ioc/pvalink_lset.cpp:pvaPutValueX", "ioc/pvalink_channel.cpp:put", "ioc/pvalink_channel.cpp:linkBuildPut", "ioc/pvalink_channel.cpp:linkPutDone"]}
{"id": "C106", "title": "Sharing of subscriptions by PVA links", "statement": "Links which ask for the same PV with the same options share one subscription, others do not, and each link has one.", "quantifier": "every history of links opened and removed", "why_tests_cant": "all orders of opening, removal and destruction", "anchors": ["ioc/pvalink_lset.cpp:pvaOpenLink", "ioc/pvalink_channel.cpp:~pvaLinkChannel", "ioc/pvalink.cpp:init"]}
{"id": "C107", "title": "PVA links do not crash an IOC", "statement": "Whatever a record does with a PVA link, and whatever the PV has as value, no null pointer is used and nothing undefined happens.", "quantifier": "every history, call and value", "why_tests_cant": "all histories and values", "anchors": ["ioc/pvalink_lset.cpp:pvaGetValue", "ioc/pvalink_lset.cpp:pvaPutValueX", "ioc/pvalink_lset.cpp:pvaScanForward"]}
{"id": "C108", "title": "A record which uses a PVA link is never blocked for ever", "statement": "Whatever other records, the worker of PVA links and the client do at the same time, a record which reads, writes or forwards through a PVA link gets on.", "quantifier": "every schedule of any number of threads, links and PVs", "why_tests_cant": "all interleavings of threads which take locks and wait for each other", "anchors": ["ioc/pvalink_channel.cpp:put", "ioc/pvalink_channel.cpp:linkBuildPut", "src/clientget.cpp:gpr_setup", "src/evhelper.h:tryInvoke"]}
{"id": "C109", "title": "What a record learns about the PV of a link", "statement": "While a PVA link is connected its record is told the type, number of elements, limits, units and precision of the PV as it is now, and the alarm and time which the last read has given; while not connected nothing.", "quantifier": "every history, every value", "why_tests_cant": "all histories of updates and all values", "anchors": ["ioc/pvalink_lset.cpp:pvaGetDBFtype", "ioc/pvalink_lset.cpp:pvaGetElements", "ioc/pvalink_lset.cpp:pvaGetUnits", "ioc/pvalink_lset.cpp:pvaGetAlarmMsg"]}
{"id": "C110", "title": "A client that reads slowly", "statement": "A client that does not take what it is sent costs the server a bounded amount of memory, and once it reads again it is sent everything owed to it and its requests are read again, in whatever order client and server proceed.", "quantifier": "every number of subscriptions, sizes of messages and history of posting, requesting and reading", "why_tests_cant": "all interleavings of posting, requesting and reading, any sizes", "anchors": ["src/serverconn.cpp:ServerConn::bevRead", "src/serverconn.cpp:ServerConn::bevWrite", "src/servermon.cpp:MonitorOp::maybeReply", "src/servermon.cpp:MonitorOp::doReply"]}
{"id": "C111", "title": "A mailbox keeps what clients put", "statement": "A mailbox PV answers every PUT and GET, and each field always holds what the last PUT or post which carries it has; a PUT which gives no time is given the current one; subscribers are sent just the fields of the update.  The value of a read-only PV changes only by posting, and clients which try are told so.", "quantifier": "every type, value and sequence of PUTs, GETs and posts", "why_tests_cant": "all types, values and histories", "anchors": ["src/sharedpv.cpp:SharedPV::buildMailbox", "src/sharedpv.cpp:SharedPV::buildReadonly", "src/sharedpv.cpp:SharedPV::attach", "src/sharedpv.cpp:SharedPV::post"]}
{"id": "C112", "title": "A StaticSource serves what it has", "statement": "A StaticSource answers searches, lists names and connects channels for exactly the names added and not removed, each with the PV added under it; a name in use cannot be added again; when remove() or close() has returned the clients of the PV are disconnected and no others.", "quantifier": "every sequence of calls by any threads, and of clients which connect and leave", "why_tests_cant": "all interleavings of applications and clients", "anchors": ["src/sharedpv.cpp:StaticSource::add", "src/sharedpv.cpp:StaticSource::remove", "src/sharedpv.cpp:StaticSource::close", "src/sharedpv.cpp:StaticSource::Impl::onCreate", "src/sharedpv.cpp:StaticSource::Impl::onSearch", "src/sharedpv.cpp:StaticSource::Impl::onList"]}
{"id": "C113", "title": "Closing and removing PVs ends", "statement": "Calls of add(), remove(), close() and list() of a StaticSource, from any threads and while the server is at work, all return.", "quantifier": "every number of threads, calls, channels and callbacks, and every order in which they proceed", "why_tests_cant": "all interleavings of threads and worker", "anchors": ["src/sharedpv.cpp:StaticSource::close", "src/sharedpv.cpp:StaticSource::remove", "src/serverchan.cpp:ServerChannelControl::close", "src/evhelper.cpp:evbase::_call"]}
{"id": "C114", "title": "Idle connections are kept, dead ones dropped", "statement": "While client and server reach each other in time, neither closes the connection for being idle, whatever timeout each is configured with; when nothing arrives any more, each closes it once its timeout has passed.", "quantifier": "every timeout configured, every delay of the network below a quarter of it, every interleaving of timers and messages, for any length of time", "why_tests_cant": "timing of real networks, unbounded duration", "anchors": ["src/clientconn.cpp:Connection::tickEcho", "src/clientconn.cpp:Connection::bevEvent", "src/serverconn.cpp:ServerConn::handle_ECHO", "src/conn.cpp:ConnBase::bevEvent", "src/config.cpp:enforceTimeout", "src/config.cpp:parse_timeout"]}
{"id": "C115", "title": "MPMCFIFO delivers all, in order", "statement": "Whatever threads push into and pop from an MPMCFIFO: elements are popped in the order in which they were pushed, each exactly once, never more than the limit are held, and no thread waits in push() while there is room, or in pop() while there are elements, with nobody about to wake it.", "quantifier": "every number of threads, every list of calls of each, every limit, every schedule", "why_tests_cant": "lost wake-ups need particular schedules of three or more threads", "anchors": ["src/pvxs/util.h:MPMCFIFO::emplace", "src/pvxs/util.h:MPMCFIFO::pop"]}
{"id": "C116", "title": "Starting and stopping a server", "statement": "When start() of a Server has returned, the server accepts connections, answers searches at all of its interfaces and sends beacons; when stop() or run() has returned, it does none of these, and every connection it had is closed. run() returns only after an interrupt() or signal made for it, and no call waits for ever, except run() while nobody interrupts.", "quantifier": "every number of interfaces, every list of calls by any threads, every schedule, and every order of clients, searches and timers in between", "why_tests_cant": "the promises concern every interleaving of calls of several threads with events from the network", "anchors": ["src/server.cpp:Server::Pvt::start", "src/server.cpp:Server::Pvt::stop", "src/server.cpp:Server::run", "src/server.cpp:Server::interrupt"]}
{"id": "C117", "title": "Handling of signals by SigInt", "statement": "While a SigInt exists, SIGINT or SIGTERM leads to a call of its function, on a thread of its own; the function is called at most once, only because of a signal, and not after the SigInt was destroyed. Destroying a SigInt ends, no signal handler touches it afterwards, and another can be made.", "quantifier": "every sequence of SigInts made and destroyed, every number of signals at any time, every interleaving of the signal handlers on other threads", "why_tests_cant": "races between signal handlers and the destructor cannot be provoked reliably", "anchors": ["src/util.cpp:SigInt::Pvt", "src/util.cpp:SigInt_handler"]}
{"id": "C118", "title": "Printed values can be told apart", "statement": "What is printed of an array tells the number of its elements and those shown, and is printable text; what the delta format prints of marked scalars and arrays tells which fields are marked, their types and values. Integers are shown in decimal, strings as string literals, in both formats of Value.", "quantifier": "every array of integers, booleans or strings with every limit, every list of marked fields", "why_tests_cant": "an ambiguity would need two particular values which are printed alike", "anchors": ["src/sharedarray.cpp:showArr", "src/datafmt.cpp:FmtDelta", "src/datafmt.cpp:FmtTree::show_value"]}
{"id": "C119", "title": "Roles of an account", "statement": "The roles of a client's credentials are exactly the names of the groups the account is a member of, however many these are and whichever way the C library reports that there are more than expected, and finding them comes to an end.", "quantifier": "every account, every set of groups, both kinds of C library", "why_tests_cant": "needs a system with accounts in more groups than the first guess, and libraries of both kinds", "anchors": ["src/serverconn.cpp:ClientCredentials::roles", "src/osgroups.cpp:osdGetRoles"]}
{"id": "C120", "title": "Version numbers", "statement": "version_abi_check() is true exactly if headers and library are of the same major and minor version and the headers are not newer; comparing PVXS_VERSION compares versions, the first number which differs deciding.", "quantifier": "every pair of versions", "why_tests_cant": "a test sees the one version it is built with", "anchors": ["src/pvxs/version.h:VERSION_INT", "src/pvxs/version.h:version_abi_check", "src/util.cpp:version_int"]}
