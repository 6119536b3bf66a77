# Formal model of pvxs in Rocq (Coq 8.16.1)

This document says what is modelled, how, what is proved, and what has to be
trusted.  `/repo` is the source that is modelled, at its pinned commit.

## 1. Layout

Every area of the code has up to four files in `rocq/theories`:

| suffix        | content |
|---------------|---------|
| `XModel.v`    | functions transcribed from the C++ source, no proofs; every definition cites file and lines |
| `XSpec.v`     | the independent specification a reader of the English property would write |
| `XProofs.v`   | lemmas |
| `XProps.v`    | the theorems of the property list, each with `Print Assumptions` and an `Example` showing that its hypotheses are met by a non trivial case |

Areas: `Wire` (primitive codec, buffers), `BitMask`, `Type` (type
descriptions), `Value` (storage, full and partial value codec, marks,
assignment, lookup), `Conn` (framing, segmentation), `ServerMon`, `SharedPV`,
`ServerOp`, `ClientMon`, `ClientOp`, `Search`, `Beacon`, `Udp`, `EvBase`, `Text`,
`Source`, `Log`, `Config`.

## 2. Modelling conventions

* Bytes and machine integers are `Z`; a byte is a `Z` in `[0,256)`.  C++
  conversions are written as explicit `mod 2^n`.
* A read buffer is the list of bytes not yet consumed, the byte order flag and
  the sticky error flag (`Buffer::pos/limit/be/err`).  An output buffer is the
  list of bytes written, the byte order and the error flag.
* The segmented receive buffer (`EvInBuf`) is modelled separately, with the
  decisions of libevent (how much is pulled up) as a universally quantified
  oracle.
* C++ pointers into a `std::vector<FieldDesc>` are list suffixes, so pointer
  arithmetic is `skipn`; running off the end is a distinct outcome.
* `std::map` is an association list kept sorted by key.
* An exception, undefined behaviour and running out of recursion fuel are
  distinct outcomes of the model.  Theorems that need fuel say that enough fuel
  exists.
* Concurrency: every mutex protected region, or every event handled by a single
  worker thread, is one atomic step; a history is an arbitrary list of steps.
* Where the code does not satisfy the property, the model stays faithful to the
  code, the violation is proved as a theorem named `..._refuted` (with a
  witness), and the part that does hold is proved as `..._partial`.

## 3. Plan per property

| id | model | proof |
|----|-------|-------|
| C01 | `_to_wire`/`_from_wire` with host order as a parameter | induction on the width |
| C02 | `Size`, `Selector` codecs | case analysis on the encoding |
| C03 | string codec, array-of-string loop | induction on the array |
| C04 | POD array loop over sliced buffers | induction on the remaining count, for any slicing |
| C05 | `Status` codec | round trip for NUL free text (`_partial`), truncation at NUL `_refuted` |
| C06 | `Header` codec | direct |
| C07 | all decoders | each decoder is shown to be a "suffix decoder"; sticky fault lemma |
| C08 | `EvInBuf` with oracle | simulation by the contiguous buffer; `skip` over-consumption `_refuted` |
| C09 | mask codec | list of words vs set of bits |
| C10 | `findSet`, `onlySet` | bit search correct for every 64 bit word |
| C11 | `FieldDesc` arrays; tree types | mutual induction over type trees |
| C12 | decoder of types on arbitrary bytes | the decoded array is the flattening of some tree |
| C13 | `to_wire_field`/`from_wire_field` | induction over nesting |
| C14 | `to_wire_valid`/`from_wire_valid` | walk over the flat array |
| C15 | type store | key redefinition `_refuted`; references to once-defined keys `_partial` |
| C16, C17 | flat storage with marks | index arithmetic over the flattened tree |
| C18 | `traverse`, `nameOf` | lookups of flattened trees |
| C19, C20 | `copyIn`, `copyOut`, `convertArr` | modular arithmetic |
| C21, C55 | `assign`, `clone`, `cache_sync` | walk over the flat array |
| C22 | `request2mask` | walk over the flat array |
| C23, C24 | `bevRead` state machine | chunk independence by induction on the stream |
| C25-C28 | `MonitorOp` machine | invariants over all step sequences |
| C62 | `stats()` on the same machine | counting along the run; fields mixed up `_refuted` |
| C29-C31 | `SharedPV` with a heap of shared values | invariants; aliasing counterexample |
| C32-C35 | `ServerConn` channel and operation tables | invariants over all message sequences |
| C36, C63, C64, C65 | client subscription machine | invariants; counterexamples `_refuted` |
| C37, C38, C65-C67 | client operation machine | invariants; re-send counterexample |
| C39 | search ring | bounded ticks by induction |
| C40 | beacon table | invariants |
| C41 | UDP datagram decoder | correspondence with a declarative datagram grammar |
| C42 | work queue | invariant over interleavings |
| C43-C46 | text functions | induction on the string |
| C47, C48 | server sources, logger configuration | induction over the history |
| C49, C50, C68-C70 | `config.cpp` on texts and endpoint lists | induction; truncation and order counterexamples |
| C51 | `SockAddr` codec | direct |
| C52 | `ResultWaiter` | invariant, lost wake-up counterexample |
| C53, C54 | `TypeDef::_append`, `_equal` | induction on trees |
| C56 | encoders on limited buffers | each encoder step is append-only and bounded |
| C57 | mask expressions | bitwise |
| C60, C61 | `clear`, `iall`, `ichildren` on the flat storage | index arithmetic over the flattened tree |
| C58, C59 | `strDiff`, `splitLines` | search measure, induction; non-termination on a lone CR `_refuted` |
| C71, C72 | search messages, replies, both ends of the wire | byte level round trips; protocol order `_refuted` |
| C73, C74 | `poke()`, `serverEvent()` in the beacon machine | invariants over histories; late discoverer `_refuted` |
| C75 | `traverse()` as a function on values, positions as paths | equivalence with a relation of steps; safety and termination by induction; three `_refuted` |
| C76, C77 | each writer and each reader of a message body, on the buffers of `WireModel` and programs of `SegModel` | byte level round trips in a calculus of writers and readers; empty name `_refuted` |
| C78 | decoding followed by `cache_sync()`, iterated (`StreamModel`) | induction over the updates, `_partial` |
| C79 | choice of method, credentials kept by the server | invariant over histories; later message `_refuted` |
| C80 | the same readers on arbitrary bytes | weakest preconditions; early update and empty type `_refuted` |
| C81 | the builders of `src/nt.cpp` over the members and definitions of `TypeModel`; `call()` over `copyIn()` | exhaustion over type codes and options; induction over columns and arguments; float images and duplicate columns `_refuted` |
| C82 | `FieldName` of `ioc/fieldname.cpp` on byte strings with `strtol` | induction over the text; wrong subscripts `_refuted` |
| C83 | yajl callbacks of `ioc/groupconfigprocessor.cpp` and `ioc/groupprocessorcontext.cpp` as a fold over events; `dbLoadGroup()` | invariant relating configuration to the settings so far; unreported errors, aborts and lost files `_refuted` |
| C84 | `validateGroups()`, `defineGroups()`, `resolveTriggerReferences()` | induction; stable sort proved sorted and a permutation; documented trigger syntax `_refuted` |
| C85 | `createGroups()`, `initialiseTriggers()` over an abstract database of channels; out-of-range access is a distinct outcome | induction over definitions done and to do; failures `_refuted` |
| C86 | `initialiseValueTemplate()`, `addMembersFor...()`, `setFieldTypeDefinition()` over `TypeModel` | what a merge leaves at a path only one field uses; nested structure `_refuted` |
| C87 | `putGroup()`, `putGroupField()` and `IOCSource::put()` over a database whose answers may depend on all calls made | what each call adds to the trace, by a program logic for operations; wrong permission and partial writes `_refuted` |
| C88 | `GroupSource::get()` and `IOCSource::get()` with locks | reads under lock equal reads of a frozen database; missing Const `_refuted` |
| C89 | `onSubscribe()` and the event callbacks as steps | induction over events; untriggered field `_refuted` |
| C90 | `ioc/singlesource.cpp` GET, PUT, MONITOR | as for groups; default write and missing tag `_refuted` |
| C91 | `ioc/iocsource.cpp` conversions | exact list of members added; wraps and cuts `_refuted` |
| C92 | `ioc/credentials.cpp` | induction over the text; IPv6 host `_refuted` |
| C93 | `src/pvxs/sharedArray.h` as histories over variables and buffers | invariant: one buffer has constant or changing references, never both; induction over histories |
| C94 | `OpsModel`: calls to the database of a PUT | the calls of each part of a PUT, composed over the fields by induction |
| C95 | `ChanModel`: channels, connections, operations and handles of a client context as a state machine over events | invariants of the state, kept by each function and event; induction over histories |
| C96 | `ChanModel` | invariant; from each state a path of events to the start of the operation |
| C97 | `ChanModel` | what was told as a word over the events of an operation, related to the lists of channels by an invariant |
| C98 | `ChanModel` | invariant between flags of handles, state of channels and what was told |
| C99 | `ChanModel` | what each event keeps and tells, function by function |
| C100 | `ChanModel` | what each event keeps in the cache; connections and their registration |
| C101 | `ChanModel` | with the worker stopped no function makes a connection alive |
| C102 | `LinkModel`: the callbacks of the JSON parser as a state machine over its calls | each option is a fold over the members; induction over nested maps |
| C103 | `LinkModel`: links, channels, worker and calls of records as a state machine over events | invariant: root and fields of a link are those of the value after the updates taken |
| C104 | `LinkModel` | invariant for the lists of records to process; each event taken once by a measure on the tasks |
| C105 | `LinkModel` | what each event keeps of a pending value; induction over calm histories; the tasks of the worker |
| C106 | `LinkModel` | invariant between channels and their keys over tidy histories |
| C107 | `LinkModel` | no conversion of such values is undefined; a named link has a channel, by the invariant |
| C108 | `LinkLockModel`: threads, the lock of a channel and the worker of the client, as a state machine over schedules | invariant of owners and waiters; from each state which is not crossed a schedule which ends; a crossed state stays so |
| C109 | `LinkModel` | from the invariant of C103: the fields which a link remembers are those of the value |
| C110 | `TxModel`: output buffer of a connection, suspending and resuming of reading, subscriptions held back | invariant of all reachable states, and a measure which each step of catching up lowers |
| C111 | `BoxModel`: PUT, GET and post of a mailbox or read-only SharedPV | induction over the history; assignment and clone by C21, the time by C19, lookup by C18 |
| C112 | `StaticModel`: the map of a StaticSource, its list of names, channels of its PVs, as a state machine over calls of threads and clients | invariant of all reachable states; what is due to be closed is followed until it is |
| C113 | `StaticLockModel`: the lock of a StaticSource and the worker of the server, as a state machine over schedules | invariant of who holds the lock and who waits; progress from each state; a weight which each step lowers |
| C114 | `KeepModel`: echo timer, idle timeouts and messages under way, as a timed state machine; timeouts as configured | invariant: the times of the echos which were not answered yet, each a period after the one before; progress of time from each state |
| C115 | `FifoModel`: the queue, the counts of waiting threads, the two events as flags, and threads, as a state machine over schedules | invariant: while there are elements and a reader waits, a signal is set, about to be given, or a reader is awake (and likewise for writers); a weight which each step lowers |
| C116 | `LifeModel`: state, acceptor, UDP listeners, beacon timer and connections of a server, and threads which call start(), stop(), run(), interrupt(), as a state machine over schedules | invariant per state (exactly one thread inside start() or stop() while Starting or Stopping); simulation of the calls of one thread; counts of waits and signals |
| C117 | `SigModel`: the atomic, the steps of signal handlers, constructor, destructor and thread, as a state machine over schedules | invariants: of the thread and its socket for all schedules; of the atomic and the handlers in progress for schedules in which none is in progress when the destructor goes on |
| C118 | `ShowModel`: printing of arrays, of lines of the delta format, and of scalars of the tree format | unique reading: decimal digits end at the first other character, string literals are read back (C43, C44); induction over elements and lines |
| C119 | `RoleModel`: `osdGetRoles()` on Unix, with the kinds of `getgrouplist()` its comments tell of | induction over the groups for which there is no room yet |
| C120 | `AbiModel`: `VERSION_INT()`, `version_abi_check()` | the shifted numbers have no bits in common, so that joining them is adding; linear arithmetic |

## 4. Trusted base

* The kernel of Coq 8.16.1, its `vm_compute` (used in examples and in a few
  computations on constants), and the standard library as installed.
* Axioms: `Print Assumptions` follows every theorem in its `Props` file, and
  prints "Closed under the global context" for each.  No theorem depends on an
  axiom, of the standard library or otherwise.  (The gate lists constants
  `Coq.ssr.ssrunder.Under_rel.*`; these come with the files of the
  standard library which are loaded, and no theorem uses them.)
* `Section` variables stand for things left abstract (floating point
  conversions, the value type of a queue, sources, callbacks).  They are
  discharged: the theorems quantify over them.
* That the model says what the C++ says.  Nothing checks this but reading:
  every definition cites the lines it transcribes.  What is left out is said in
  the comment of the definition or at the head of the model file, and in section 5.
* The C++ compiler, libevent, the operating system and EPICS Base behave as
  documented; where a model depends on them (pulling up of an evbuffer, order of
  timers, partial reads) the theorems hold for every behaviour which the
  documentation allows.

## 5. What is modelled

| model | code |
|-------|------|
| `WireModel` | `src/pvaproto.h`: buffers, integers, sizes, selectors, strings, status, header; SockAddr codec of `src/evhelper.cpp` |
| `SegModel` | `EvInBuf`, `EvOutBuf` of `src/evhelper.cpp`; the array loops of `src/pvaproto.h` |
| `BitMaskModel` | `src/bitmask.h`, `src/bitmask.cpp` |
| `TypeModel` | `src/pvxs/data.h` (`TypeCode`), `src/type.cpp`, `FieldDesc` of `src/dataimpl.h`, type codec of `src/dataencode.cpp` |
| `ValueModel` | storage of `src/dataimpl.h`, value codec of `src/dataencode.cpp` |
| `MarkModel` | marks and iteration of `src/data.cpp` |
| `CopyModel` | `copyIn`, `copyOut`, `assign`, `clone`, `cache_sync` of `src/data.cpp`; conversions of `src/sharedarray.cpp` |
| `PvReqModel` | `src/pvrequest.cpp` |
| `TextModel` | text functions of `src/util.cpp`, booleans of `src/sharedarray.cpp` |
| `ConnModel` | `ConnBase::bevRead()` and `enqueueTxBody()` of `src/conn.cpp` |
| `ServerMonModel` | `src/servermon.cpp` |
| `SharedPVModel` | `src/sharedpv.cpp` without the mailbox put and RPC forwarding |
| `ServerOpModel` | `src/serverconn.cpp`, `src/serverchan.cpp`, `src/serverget.cpp`, `src/serverintrospect.cpp`: tables and control flow |
| `ClientMonModel` | `src/clientmon.cpp` |
| `ClientOpModel` | `src/clientget.cpp`, `src/clientintrospect.cpp` |
| `EvBaseModel` | work queue of `src/evhelper.cpp`, `ResultWaiter` of `src/client.cpp` |
| `ConfigModel` | `src/config.cpp` |
| `SourceModel` | source registry of `src/server.cpp`, channel creation of `src/serverchan.cpp` |
| `LogModel` | `src/log.cpp`: levels and patterns |
| `UdpModel` | `src/udp_collector.cpp`: decoding and forwarding |
| `SearchModel` | search ring, messages and replies of `src/client.cpp`; `onSearch()` and beacons of `src/server.cpp`; `handle_SEARCH()` of `src/serverchan.cpp` |
| `BeaconModel` | beacon tracking and `poke()` of `src/client.cpp`, `src/clientdiscover.cpp` |
| `ReqModel` | `src/clientreq.cpp`, without `rawRequest()` |
| `LookupModel` | `src/data.cpp`: `traverse()`, `operator[]`, `lookup()`, `nameOf()` |
| `MsgModel` | message bodies: `src/clientget.cpp`, `src/clientmon.cpp`, `src/clientconn.cpp`, `src/clientintrospect.cpp`, `src/clientreq.cpp`, `src/serverget.cpp`, `src/servermon.cpp`, `src/serverchan.cpp`, `src/serverconn.cpp`, `src/serverintrospect.cpp`: what is written and how it is read, up to where the state of the operation decides; credentials |
| `StreamModel` | decoding and `cache_sync()` for successive replies to one operation |
| `NtModel` | `src/nt.cpp` and `src/pvxs/nt.h` complete |
| `GroupModel` | `ioc/fieldname.cpp`, `ioc/groupconfigprocessor.cpp`, `ioc/groupprocessorcontext.cpp`, `ioc/field.cpp`, `ioc/typeutils.cpp`; `dbLoadGroup()` and `processGroups()` of `ioc/groupsourcehooks.cpp`; `getChannelValueType()` of `ioc/iocsource.cpp`.  The JSON parser, macro expansion and the record database are parameters |
| `OpsModel` | GET, PUT and MONITOR of an IOC: `ioc/iocsource.cpp`, `ioc/groupsource.cpp`, `ioc/singlesource.cpp`, `ioc/credentials.cpp`, `ioc/securityclient.cpp`.  The record database, locks and `dbProcessNotify()` are parameters; `asTrapWrite` and logging are left out |
| `ArrayModel` | `src/pvxs/sharedArray.h`, with `allocArray()` and `convertArr()` of `src/sharedarray.cpp`: all operations on arrays except raw pointers, memory of the user's and `castToUnsafe()` |
| `ChanModel` | `src/client.cpp`: Channel, cache, search replies, name servers, close(); `src/clientconn.cpp`: Connection; Connect handles.  Not the bytes of messages, nor callbacks which call back |
| `LinkModel` | `ioc/pvalink*.cpp`: options, links, channels, worker, reading and writing.  Not: its report and debug functions, and what records do |
| `LinkLockModel` | `ioc/pvalink_channel.cpp`, `ioc/pvalink_lset.cpp`, `src/clientget.cpp`: who holds the lock of a channel and who waits for the worker of the client.  Not the locks of records |
| `TxModel` | `src/serverconn.cpp`: `bevRead()`, `bevWrite()`; `src/servermon.cpp`: `maybeReply()`, `doReply()`, as numbers of bytes.  Assumed of libevent: the write callback comes when output was written and what is left does not exceed the low water mark |
| `BoxModel` | `src/sharedpv.cpp`: `buildMailbox()`, `buildReadonly()`, `onGet` and `onPut` of `attach()`, `open()`, `post()` |
| `StaticModel`, `StaticLockModel` | `src/sharedpv.cpp`: `StaticSource`, and the channels of `SharedPV`; `src/serverchan.cpp`: `ServerChannelControl::close()`, as to who waits for whom |
| `KeepModel` | `src/clientconn.cpp`: echo timer; `src/serverconn.cpp`: `handle_ECHO()`; `src/conn.cpp`: idle timeout; `src/config.cpp`: `enforceTimeout()`, `parse_timeout()`, as to timing |
| `FifoModel` | `src/pvxs/util.h`: `MPMCFIFO` |
| `LifeModel` | `src/server.cpp`: `Server::Pvt::start`, `stop`, `Server::run`, `interrupt` |
| `SigModel` | `src/util.cpp`: `SigInt`, `SigInt_handler` |
| `ShowModel` | `src/sharedarray.cpp`: `showArr`; `src/datafmt.cpp`: `FmtDelta::field` and `FmtTree::show_value` for scalars and arrays of them |
| `RoleModel` | `src/osgroups.cpp`: `osdGetRoles` for Unix; `src/serverconn.cpp`: `ClientCredentials::roles` |
| `AbiModel` | `src/pvxs/version.h`: `VERSION_INT`, `PVXS_VERSION`, `PVXS_ABI_VERSION`, `version_abi_check` |
Not modelled: printing of values
(`src/describe.cpp`, and `src/datafmt.cpp` beyond the row above), `src/osgroups.cpp` for Windows and the
interface enumeration of `src/osiSockExt*`, start and stop of
contexts, sockets (`bind`, multicast membership), `ioc/` except where a row
above says so, the command line
tools of `tools/`, and the tests.  Memory allocation does not fail, and memory
orderings weaker than sequential consistency are not considered.

## 6. Method

Each theorem of the property list was tested by editing the model the way a
bug would (`seeded/LOG.jsonl`): the theorems which failed are listed, and those
tightened because an edit survived.

## 7. What the code does not do: refuted claims

Each is a theorem: the model, faithful to the code, has a reachable case which
contradicts the claim.

* `C05_status_nul_refuted`: A message with an embedded NUL does not arrive as sent.
* `C08_skip_across_refuted`: ... but skip() across a slice boundary consumes the rest of the window in addition to the n bytes asked for (src/pvaproto.h:79-80).
* `C09_wide_mask_refuted`: ... wider masks: a set bit numbered 65528 or more makes the received mask's 16 bit size wrap around, and iterating it visits nothing.
* `C10_range_iteration_refuted`: C10: iterating over a range [onlySet(a,b)] does not stop at b when b is not itself a set bit (src/bitmask.h:182-193): it never ends.
* `C10_shrink_refuted`: C10: shrinking a mask keeps bits beyond the new size, findSet() then returns a number beyond size().
* `C11_deeper_refuted`: The limit in C11 is the decoder's: at 22 levels the sender sends what every receiver rejects.
* `C12_big_update_refuted`: With 65536 fields or more, an update with an empty mask (the single byte 0) sends the receiver into a loop it can only leave by an exception: the mask counts its bits modulo 65536 and findSet() returns that count at the end, which is below the number of fields (src/bitmask.h:94, src/dataencode.cpp:715-726).
* `C13_forwarded_union_array_refuted`: But an array of Union which was received, and is sent on unchanged, can not be decoded: its elements lost their selectors (src/dataencode.cpp:361-383, 640-668).
* `C15_redefinition_refuted`: Defining key 5 as int, then as string, then referring to it yields int.
* `C19_failed_assignment_marks_refuted`: An assignment which fails may still mark: when an array of structures is converted element by element, the elements mark the field they are for.
* `C19_real_to_integer_refuted`: Assigning a number which is not finite (or out of range) to an integer field is undefined behaviour, not a refusal.
* `C21_root_mark_refuted`: Marking the root of a value stands for all of its fields, but their contents are not copied.
* `C21_struct_array_refuted`: A value which is an array of structures (for instance the selection of a Union) cannot be cloned.
* `C21_union_selection_refuted`: With a Union, clone() (and assign()) may select another member: the first one of the same type.
* `C21_unselected_union_refuted`: A marked Union in which nothing is selected cannot be cloned.
* `C22_union_type_refuted`: A channel whose type is a Union instead of a structure: asking for its second member reads and writes outside of the type description.
* `C26_root_mark_refuted`: Two posts into a queue of one: x is set to 1, then everything (marked as a whole) to 5. The subscriber is sent x = 1 only.
* `C26_union_refuted`: Two posts into a queue of one: member a is set to 1, then member b to 7. The subscriber is sent 7 as member a, which never held it.
* `C26_unselected_refuted`: The second post leaves the Union without a selection, and sets x to 5: the subscriber is sent the old selection with the new x.
* `C27_finish_window_refuted`: After finish() the queue is sent without regard to the window.
* `C27_stop_window_refuted`: An update sent just after the client stopped the subscription is not counted against the window.
* `C27_stopped_end_refuted`: The end of a subscription reached just after the client stopped it is sent as an update which the client cannot decode.
* `C28_ack_refuted`: A subscription which used up its window, with updates queued: the client acknowledges, the server has nothing left to do, and the update stays.
* `C29_refuted`: C29 does not hold: what subscriber 2 is sent depends on whether 1 is slow.
* `C30_refuted`: C30 does not hold: a post made while the subscriber joins is lost to it, though made after it was set up.
* `C31_close_refuted`: C31 does not hold with close(): two channels, two calls of onLastDisconnect
* `C31_servers_refuted`: nor with two servers: the call decided first may be made last
* `C32_stale_refuted`: C32 does not hold of the handle: an ExecOp kept from an execution which was cancelled answers the next one.
* `C32_unanswered_refuted`: And an RPC execute request with the GET bit is accepted, while no handler is called for it.
* `C33_init_refuted`: So it does for an INIT the server refuses, and for GET_FIELD.
* `C33_refuted`: C33 fails of a request with the destroy bit: once replied the operation has ended, its onClose is not called then or when the connection is lost, and a client which uses the request ID again is disconnected.
* `C35_again_refuted`: And destroying it again ends none of the operations made since.
* `C35_refuted`: A channel which was destroyed is still in the table: a request naming its SID reaches the handler.
* `C36_init_error_refuted`: An error of the user's onInit function ends the subscription, but the user is not told.
* `C37_reexec_early_refuted`: reExecGet() while not connected: the callback is thrown away.
* `C37_reexec_error_refuted`: A refused reExecPut() ends the connection, and its callback is not invoked.
* `C37_reexec_lost_refuted`: reExecGet() of a GET: the connection is lost, and the callback is never invoked, also not after the next connect.
* `C37_reexec_twice_refuted`: The callback of reExecGet() is invoked twice: with the result, and when a later INIT is refused.
* `C38_refuted`: The connection is lost while the reply to a PUT is awaited: it is sent again.
* `C39_long_name_refuted`: It does end for a name which does not fit in a message: an assertion fails. (Likewise for two which fit one by one but not both.)
* `C39_once_refuted`: A channel which connects and is lost again before its slot in the ring comes round is asked for twice in one message.
* `C39_reset_refuted`: The interval is not shortened by connecting: a channel lost after a long search is, after the immediate one, only searched for again after as long.
* `C41_abort_refuted`: A process on this host can end every other which has a collector: an origin tag with a search still marked unicast reaches assert().
* `C41_protocol_refuted`: The list of protocols of one datagram is not all that decides: after any datagram with "tcp" in it, names are delivered for datagrams without.
* `C41_throw_refuted`: A search shorter than its header makes a new collector throw: the message is reported as a programming error, at the highest level, whoever sent it.
* `C42_join_refuted`: Otherwise not: join() between the lock and event_add() of a call() in another thread. The action was accepted, is never executed, and the thread waits forever.
* `C44_unsigned_range_refuted`: as the theorem before it in theories/TextProps.v: As an unsigned integer negative numbers are accepted too and wrap around.
* `C45_empty_refuted`: Missing: Member accepts an empty name for a child.
* `C45_nul_refuted`: Missing: std::string may hold a NUL, and validation stops there.
* `C46_atomic_refuted`: Not so: a text which is refused changes nothing.
* `C46_grammar_refuted`: Not so: only what is documented is accepted.
* `C46_keyword_refuted`: Not so: any field can be named. One called field, or record, is not.
* `C46_more_refuted`: Not so: naming more fields selects more. With a field inside named as well, the others inside are not selected.
* `C46_space_refuted`: Not so: spaces do not matter. After the last token they are an error.
* `C47_throw_refuted`: Without that hypothesis: a source which moves the ChannelControl away and then throws leaves the next one with a null pointer
* `C47_wrong_source_refuted`: and the handlers of a source which threw are taken for those of the next, which ignored the channel
* `C48_again_refuted`: Otherwise not. Setting a pattern again to its level has no effect on a logger changed in between;
* `C48_order_refuted`: and a pattern set again keeps its old place for loggers created later: the same history gives two loggers different levels, depending on when they were created
* `C50_strings_refuted`: the order is not that of first appearance
* `C52_refuted`: With two threads in wait() only one is woken: the other one stays blocked forever, unless it gave a timeout.
* `C53_duplicate_aborts_refuted`: as the theorem before it in theories/TypeProps.v: The rebuild succeeds exactly when no Struct has two members of one name; else the process aborts (an assert). += never introduces a duplicate by itself, but the members given to it may hold one.
* `C53_recode_refuted`: A Struct member may be turned into Any, keeping members it can no longer have: what comes out is not a definition which could have been built.
* `C54_union_refuted`: Union {a} equals Union {a, b}; the other way round the comparison runs past the end of a map.
* `C55_struct_array_refuted`: An update holding an array of structures in an Any cannot be synchronised: the exception leaves the fields after it as they were.
* `C57_not_equality_refuted`: [!] leaves ones beyond the size, which == then sees.
* `C59_carriage_return_refuted`: Any text with a carriage return which is not part of a line end makes it run forever.
* `C62_stats_refuted`: The number of queued updates is reported as that of merged updates, and that as zero.
* `C63_percent_refuted`: A threshold given as "1%" of a queue of 200 is taken as 200.
* `C63_refuted`: The acknowledgements are not for updates only: a Connected event popped counts, so that the server may send more than [queue_size] updates, and more are queued.
* `C64_masked_finished_refuted`: Finished is reported even though disconnects are masked.
* `C65_refuted`: Cancelled before INIT was answered, the answer makes the client end the connection, which other channels use.
* `C66_refuted`: An operation cancelled by an onDisconnect() callback uses the connection its channel has no more.
* `C68_order_refuted`: the order of the addresses is lost
* `C69_refuted`: a port number too large is not refused, but another one is used: 70000 gives 4464
* `C72_protocol_order_refuted`: A search through a connection which offers another protocol after "tcp" is misread: here, of the one name searched for, none is seen, and the connection is closed.
* `C72_short_refuted`: A reply cut short before the address makes the client throw a logic error, as though by a mistake of the program.
* `C73_clock_refuted`: After the clock was set back hurryUp() has no effect until it has caught up: not every call at least 30 seconds (of time, here of ticks of the search timer) after the last one has an effect.
* `C74_late_refuted`: A discover() is not told about a server which was known before it started, however often that one sends beacons: it is not so that each operation in progress was told of each server known.
* `C75_failed_lookup_refuted`: A lookup which fails may still have selected another member of a Union and discarded what it held.
* `C75_index_refuted`: operator[] is documented to return an empty Value when there is no such field; an index which is not a number makes it throw.
* `C75_leave_union_refuted`: "<" does not lead from a member of a Union back to the Union.
* `C76_empty_name_refuted`: A CREATE_CHANNEL with an empty name is neither answered nor refused, and names after the empty one are skipped (src/serverchan.cpp:279).
* `C78_struct_array_refuted`: A server may well send an array of structures in an Any (likewise in a Union). The client which gets this update delivers nothing: the exception thrown by clone() ends the connection.
* `C79_later_refuted`: But a client which then asks to be anonymous, or is refused, is still taken for that user: the server starts from what it had (src/serverconn.cpp:195).
* `C80_early_update_refuted`: If not, five bytes suffice: an update for an operation which is not a subscription, or of which the server has not yet told the type, makes the client follow a null pointer (info->fl, src/clientmon.cpp:503).
* `C80_empty_type_refuted`: Also if the server told an empty type: cache_sync() then follows a null pointer (src/data.cpp:1212).
* `C81_duplicate_column_refuted`: The last case is a program which asks for two columns of one name: the process is stopped.
* `C81_ndarray_float_refuted`: Every choice for the pixels of an image should be an array. The two floating point ones are a single number: an image of floats or doubles cannot be held.
* `C82_index_refuted`: A subscript too large for 32 bits is taken modulo 2^32; 2^32-1 and -1 mean none.
* `C82_malformed_refuted`: Malformed names are accepted: a trailing dot, an empty subscript, text after the subscript.
* `C83_abort_refuted`: {"g":{"f":{"+putorder":"abc"}}} ends the process by a failed assert.
* `C83_array_refuted`: So does an option with an empty array as value, {"g":{"f":{"+type":[]}}}.
* `C83_command_refuted`: The iocsh command dbLoadGroup forgets all files: no group is made from them.
* `C83_unreported_refuted`: A value of the wrong kind is not reported: reading {"g":5} succeeds.
* `C84_blank_refuted`: The list "A, B" as in the documentation names only A: the blank is part of the second name.
* `C85_failed_refuted`: A group whose creation failed is still served, without a type.
* `C85_range_refuted`: When a field cannot be made, a trigger naming it is out of range: undefined behaviour.
* `C85_subscript_refuted`: A field named "[3]" ends the process by a failed assert.
* `C86_nested_refuted`: A structure field with a nested name "a.b" gives the id to a member "a.a".
* `C87_member_refuted`: A value sent for the member value alone of a Scalar field is reported as no change.
* `C87_partial_refuted`: A PUT which is refused may have written part: here A is written, then B is refused.
* `C87_permission_refuted`: In a group with a field without channel a PUT which is not atomic checks the permission of another field: B is written, although the client may only write A.
* `C87_proc_refuted`: The record of a Proc field is processed although the client may write nothing.
* `C88_const_refuted`: A Const field is not in the reply of a GET which is not atomic.
* `C89_first_refuted`: A field which no field triggers is not in the first update.
* `C90_other_member_refuted`: A PUT which sends only another member writes the value 0 to the record.
* `C90_tag_refuted`: With Q:time:tag a MONITOR shows another time than a GET: it does not split the nanoseconds.
* `C91_cut_refuted`: A text of more than 39 bytes is cut, and the PUT succeeds.
* `C91_long_refuted`: The last character of a long string which fills its array is not shown.
* `C91_null_refuted`: An array which is not given is not written, and the PUT succeeds.
* `C91_time_refuted`: A date after 2106 wraps.
* `C91_wrap_refuted`: Numbers which do not fit the record wrap: 65537 selects the choice 1 of an enum.
* `C92_host_refuted`: All hosts with an IPv6 address are the same host "[".
* `C93_at_refuted`: at() is to throw std::out_of_range for every index not less than size(). It reads beyond the array for the index size() itself: undefined behaviour, or the element behind a part of an array.
* `C93_consume_refuted`: The documentation of shared_array says that castTo<void>() leaves the array empty. It does not, and for that reason the result can not be frozen.
* `C93_thaw_refuted`: thaw() is to give a copy when there are other references. Of an array of Value held as shared_array<const void> it throws NoConvert: convertArr() has no copy of Value.
* `C94_block_refuted`: A client which asks to wait for the record (block) and for it to process (process=true) does not wait: the PUT ends with the request to process.
* `C95_no_crash_refuted`: A server which does so ends the process of the client: the channel which had the number is forgotten by its connection, and when that is lost, the operations of the channel are still registered (src/clientconn.cpp:202).
* `C96_failed_build_refuted`: Not so if an attempt to connect fails at once (src/clientconn.cpp:76-77). The channel for a given server is put into the cache before the attempt (src/client.cpp:376-384), and a later operation gets it from there: nothing is done for it.
* `C96_failed_holdoff_refuted`: And if the attempt after the hold off time fails at once, the timer is not started again (src/clientconn.cpp:476-487).
* `C96_given_server_refuted`: An operation for a given server goes to another one, if the given one refuses the channel: the channel is then searched for, and any server may answer (src/clientconn.cpp:355-364).
* `C96_name_server_refuted`: A connection to a name server which the client ends for a violation of the protocol is not made again: onNSCheck() looks for connections which were lost, and this one is not marked so (src/client.cpp:1286, src/conn.cpp:161-168).
* `C100_one_connection_refuted`: But not always. When the last reference to a lost connection goes, its destructor removes whichever connection to that server is registered now (src/clientconn.cpp:41-45, :170), and the next channel for this server gets another one.
* `C100_second_check_refuted`: A channel which is no longer used is closed by the first check of the cache which finds it so, though the mark "garbage" is meant to leave it to the second (src/client.cpp:1316-1323).
* `C101_silent_refuted`: A connection which the context does not know any more is left open, and goes on sending.
* `C102_order_refuted`: The range of monorder is not kept: a large one may become the smallest, or any other.
* `C102_queue_refuted`: A large Q asks the server for a queue of 0.
* `C103_missing_refuted`: A field which the PV does not have: a record which asks for an array is told that this went well, and nothing is put in its buffer.
* `C103_stale_time_refuted`: A field which was a structure and is none after the PV has come back with another type: the record gets the time of the old value with the new value.
* `C105_defer_refuted`: So with the option defer: a record which waits is not completed before another link of the PV starts a PUT.
* `C105_disconnect_refuted`: A disconnect while a record waits: it is never completed.
* `C105_early_refuted`: A record may be completed before its value is sent.
* `C105_retry_refuted`: A disconnect drops a value which waits, even with the option retry.
* `C105_stale_refuted`: After a PUT which failed before it was sent, its value stays: the next PUT of another link sends it too, behind the new one if monorder says so, and the PV gets the old value.
* `C106_shared_refuted`: Else two subscriptions to the same PV may stay.
* `C107_name_refuted`: A link with an empty name can be opened, and any use of it crashes.
* `C107_real_refuted`: A record which reads a large floating point number as an integer: undefined.
* `C108_deadlock_refuted`: It does happen: a record writes to a link while the server answers for the previous value.
* `C109_array_refuted`: The type given for an array of doubles is that of a 32 bit integer.
* `C110_sending_refuted`: Nor is a subscription held back that is being sent when the server stops reading: it goes on as long as its queue does not become empty, and posting can see to that.
* `C110_subscription_refuted`: But a client that only subscribes and does not read is never held back: the limit is looked at only when something is read from the client. With one subscription, updates of one byte and a queue of any size, the buffer grows without bound.
* `C111_odd_time_refuted`: A mailbox whose type has a field timeStamp which is not the standard structure: a PUT of another field, here of "value" of {int32 value; int64 timeStamp}, is never answered, and nothing is stored.
* `C111_throws_refuted`: A handler of the application which throws, for example after it has looked at the value: the client is never told.
* `C112_late_client_refuted`: A client which connects while the PV is removed: it stays connected, to a PV which no source has, and gets neither data nor a disconnect, until it leaves, or the application adds or closes the PV again.
* `C112_two_names_refuted`: A PV under two names: removing one of them disconnects the clients of the other, which the source still has.
* `C113_callback_refuted`: StaticSource::close() of a PV whose SharedPV::onLastDisconnect() removes it from the source: the thread has the lock and waits for the worker, the worker waits for the lock, forever.
* `C113_leaving_refuted`: The same if, meanwhile, the last client of another PV leaves.
* `C114_short_server_refuted`: A server with a timeout shorter than the period of a client's echos: the connection ends, although the peers reach each other without any delay, on every history on which nothing else is sent. So with the defaults for the client, and EPICS_PVA_CONN_TMO of 10 s for the server.
* `C116_overlap_refuted`: stop() called while another thread is in start() returns, and leaves the server running; start() called while another is in stop() leaves it stopped.
* `C116_run_again_refuted`: The end of a run() which was interrupted calls the handler for signals, and with this ends the next run() at once: one interrupt(), no signal, and two calls of run() return.
* `C116_stale_refuted`: A run() need not wait for an interrupt() made after it was called: one made before, with nobody in run(), is kept, and the next run() returns at once.
* `C116_two_runs_refuted`: run() called while another thread is in run() ends by an exception, without interrupt() or a signal, and leaves the server running.
* `C117_in_progress_refuted`: A signal handler in progress when a SigInt is destroyed: it sends to a closed socket, and no SigInt can be made any more.
* `C117_no_signal_refuted`: The function is called although there was no signal: at the latest when the SigInt is destroyed.
* `C118_tree_8bit_refuted`: Those are shown as characters: 53 as 5, and 10 as the end of a line.
* `C119_unknown_refuted`: The name of an account is that given by the client; where the system does not know it, it serves as a role, also if it is the name of a group.
* `C120_large_refuted`: A number of 256 or more runs into the one before it: the check then takes another ABI for the same.

Observations which are not theorems (the model leaves out what they are about):

* `ContextImpl::serverEvent()` iterates over `discoverers` on the UDP worker, and
  discover() and cancel() change it on the TCP worker, with no lock in common.
* A malformed name server address is logged as ignored, and then connected to
  all the same (`src/client.cpp:598-609`).
* `Channel::disconnect()` puts a channel pinned to a server by `.server()` into
  the general search when the server refuses it.
* An EXEC of GET, PUT or RPC which is cut before its IOID is read as IOID
  0xffffffff and ignored, where other messages cut short close the connection
  (`src/serverget.cpp:344-417`).
* EXEC checks neither that the command nor that the SID is that of the operation.
* A client reads as many authentication methods as the server announces, up to
  2^32, also after the message has ended (`src/clientconn.cpp:227-235`).
* The last message of a subscription is taken to hold no value if the buffer slice
  at hand ends after its Status (`src/clientmon.cpp:496`).
* pvxs servers never send MESSAGE.
* A PUT to a group tests whether a channel is a link by its final type, one to a
  single PV by its own (`ioc/groupsource.cpp`, `ioc/singlesource.cpp`).
* An exception in a callback of a MONITOR of a group is logged; what was assigned
  before it stays marked and is posted with the next event.
* Any of a long string channel holds an Int8 array, Plain and Scalar text.
