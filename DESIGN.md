# Formal model of xDimon/soralog in Rocq (Coq 8.16.1)

Sources modelled: `/repo` at the pinned commit, read as text.  Nothing is
extracted or run; the only tie between the model and the code is that every
model definition cites the file and lines it transcribes.

Sections: layout, conventions, trusted base (what is modelled and what is not),
plan per property, findings.  The status of each property is in `MANIFEST.json`.

## Layout

`rocq/theories/`

| file | content |
|---|---|
| `Base.v` | bytes, small list/option helpers, no code of the repo |
| `LevelModel.v` | `level.hpp` |
| `CircModel.v`, `CircSpec.v`, `CircProofs.v`, `Prop_Circ.v` | `circular_buffer.hpp`, one step per atomic operation, any number of threads |
| `EventModel.v`, ... | `event.hpp`, byte-level write model |
| `RecordModel.v`, ... | formatting half of `flush()` in the three output sinks, with a bounded output buffer where overrun is undefined behaviour |
| `SinkModel.v`, ... | `Sink::push`, `flush`, `async_flush`, `rotate`, worker thread, destructor of file/console sink, one step per atomic operation |
| `SyslogModel.v`, ... | `sink_to_syslog.cpp` |
| `TreeModel.v`, ... | `multisink.cpp`, `sink_to_nowhere.cpp`, level filtering, `Logger::push`, macros |
| `PoolModel.v` | the same over any number of `SinkModel` leaves, many threads: `Logger::push`, `Logger::flush`, `Multisink::flush`, `Multisink::rotate` |
| `SysModel.v`, ... | `logging_system.cpp`, `group.cpp`, `logger.cpp` |
| `YamlModel.v`, ... | `configurator_from_yaml.cpp`, `fallback_configurator.cpp` |
| `SysTwoSpec.v`, `SysTwo.v` | two threads in `makeGroup` at once (C54) |
| `GroupModel.v`, ... | the setters of `Group`, called directly |
| `LogModel.v`, ... | `Logger::push` while other threads reconfigure; who owns the sinks |
| `WeakModel.v`, ... | the sink with its request flags under the memory orders of the code |
| `RaceModel.v`, ... | the shared memory every call accesses, and the lock of the system |
| `UtilModel.v`, ... | `util.hpp` |
| `TimeModel.v`, ... | worker, flush and destructor of the output sinks with a clock |
| `TextModel.v`, ... | overloads of the logging methods, macros: what is a format and what a value |
| `ClockModel.v`, ... | `SinkModel` (threads, single steps) with a clock and `next_flush_` |
| `FullModel.v`, ... | `SinkModel` over `CircModel` instead of an ideal queue |
| `EndModel.v`, ... | a file sink from the call to the file: `FullModel` with the events of `EventModel` and the lines of `RecordModel` |
| `StampModel.v`, ... | `SinkModel` with a wall clock and the time stamps of events |
| `IoModel.v`, ... | `SinkModel` over a std::ostream with its state: the operating system may refuse writes |
| `ThrowModel.v`, ... | `SinkModel` with exceptions that are no std::exception thrown by formatters |
| `ShareModel.v`, ... | several sinks of `SinkModel` whose streams append to one file |
| `ConsModel.v`, ... | several console sinks of `SinkModel` and the program writing to one standard stream |
| `SizesSpec.v`, `SizesProofs.v` | the sizes a sink works with: given or default, auto-fixed (C58) |
| `SinkAsyncSpec.v`, `SinkAsync.v` | what the flag set by `async_flush()` achieves, over `SinkModel` (C29, C77) |
| `YamlTidySpec.v`, `YamlTidy.v` | documents without the parts that cannot be used (C115) |
| `SyslogRunModel.v` | a syslog sink in use: the messages of an execution, joining `SinkModel`, `EndModel`, `SyslogModel` (C118) |
| `DeployModel.v` | a program configured by a document, joining `YamlModel`, `SysModel`, `PoolModel`, `EndModel` (C117) |
| `StackModel.v` | `DeployModel` over the sinks of `FullModel`: the buffers operated one atomic operation at a time (C121, C122) |
| `FullEnd.v`, `FullLive.v`, `StackEnd.v`, `StackFin.v` | leaving the buffers; ends of executions of `StackModel` (C122, C123) |
| `StackFairSpec.v`, `StackFair.v`, `StackFairFin.v` | fair executions of `StackModel` (C124) |
| `ConsoleSpec.v`, `ConsoleRead.v`, `ConsoleDoc.v`, `CoverProofs.v` | reading the output of a console sink; every execution of `SinkModel` is one of `ClockModel` and `StampModel` |
| `AnySpec.v`, `AnyReplay.v`, `AnyDoc.v`, `AnyWarn.v`, `AnyLater.v` | the promises of C117, C121, C122 and C124 for whatever configures the system (C126); getLogger's warnings; sinks made by the program while it runs |
| `TimeClockSpec.v`, `TimeClock.v` | the histories of `TimeModel` as executions of `ClockModel` (C125) |
| `PoolCallSpec.v`, `PoolCall.v` | functions of the leaf sinks entered by calls on trees of sinks (C116) |
| `LifeModel.v`, ... | who holds which shared_ptr; destruction of the system, of groups and of sinks |
| `Prop_*.v` | only the property theorems, each closed by `exact`, followed by `Print Assumptions`, with an `Example` showing the hypotheses are met |

Model files contain definitions only; specification files (`*Spec.v`) contain
the independent vocabulary the theorems are stated in.

## Modelling conventions

* **Undefined behaviour is an outcome** (`UB`), never assumed away.  Exceptions
  (`Throw`) and non-termination (`Hang`, from explicit fuel) are outcomes too.
* **Concurrency** is sequentially consistent interleaving: the code uses
  default (seq_cst) atomics in the buffer; one model step = one atomic
  operation or one access to shared non-atomic memory.  The sink's request flags
  (`need_to_*`), which are accessed with weaker orders, may return old values and answer
  requests in any order: `SinkModel` allows for this, and `WeakModel` (C86), where a
  flag is the set of its stores, is proved to be covered by it.
* **Integers**: `size_t` is unbounded (`nat`/`N`) except where wrap-around is
  the point (sink size counter, signed/unsigned comparison in the YAML parser,
  allocation size), where `mod 2^64` is explicit.
* **Threads** are `nat -> thread state`; any number of them may run.
* **External code** (fmt, yaml-cpp, localtime, iostream, syslog, filesystem) is
  a parameter (section variable or an argument of the step) with the part of its
  contract that is used written down.
* **unordered_map / std::set iteration order** is unspecified in C++; the model
  takes it as a parameter (arbitrary permutation / arbitrary address order).

## Trusted base

* **Coq's kernel** (8.16.1), and `coqc`/`coq_makefile` that call it.  No plugins, no
  extraction, no `native_compute`; no kernel check is switched off.
* **Axioms.**  No axiom is declared here.  `Print Assumptions` stands below each
  property theorem in the `Prop_*.v` files and prints *"Closed under the global
  context"* for every one of them.  (The checker also lists the seven abstract
  constants of the standard library's `Coq.ssr.ssrunder.Under_rel`: `Under_rel`,
  `Under_rel_from_rel`, `Under_relE`, `Over_rel`, `over_rel`, `under_rel_done`,
  `over_rel_done`.  They belong to a sealed module that is loaded with
  `ssreflect`; no theorem here depends on them.)
  Only the standard library is used.
* **The transcription** of the code into the model files, by hand.  Each definition
  cites the lines it transcribes, and simplifications are named there.
* **The specification files** (`*Spec.v`) and the statements in `Prop_*.v`.

### What is modelled

`circular_buffer.hpp`, `event.hpp`, `level.hpp`, `util.hpp`, `sink.hpp`,
`macro.hpp`, `logger.hpp/.cpp`, `group.hpp/.cpp`, `logging_system.hpp/.cpp`,
`sink_to_file`, `sink_to_console`, `sink_to_syslog`, `sink_to_nowhere`,
`multisink`, `configurator_from_yaml`, `fallback_configurator`.

### What is not modelled

* What a program does once it has a data race: C87 says exactly which calls race; the
  other models interleave accesses to plain memory one by one.
  Of `next_flush_` only the fact that the worker may wake at any time is used in
  `SinkModel`; `TimeModel` and `ClockModel` read its latest value.
* The text format of YAML: the model starts at the tree yaml-cpp has built;
  conversions of scalars (`as<T>`) are parameters; aliases to an enclosing
  anchor (a tree that contains itself) are excluded.
* fmt: formatting is a function from arguments to text, or an exception (formats without
  arguments are modelled in `TextModel`).
  `localtime` is a function.  stdio, iostream and syslog take what they are given (C105: refusing streams).
* Failing allocation, failing `std::thread` creation, exceptions of `std::string`.
* The branches of `util.hpp` for systems that are neither Linux nor macOS.
* The iteration order of `unordered_map` and `std::set<shared_ptr>`: any order is allowed.
* Tests, examples, benchmarks and build scripts of the repository.

### Layers

The models are stacked by contracts proved one level below: the sink model uses the
queue proved linearizable in C01; the time model uses the sink as proved in C19, C21
and C24; the tree model reduces calls on composites to calls on leaves; the YAML model
drives the system model.  Seven of these steps are theorems: the YAML model runs on
`SysModel` directly, and `FullModel` puts the sink on the circular buffer itself (single
atomic operations, references to slots, reads through them) and is proved to refine
`SinkModel` (C81); `WeakModel` gives the flags their memory orders and is covered by
`SinkModel` (C86); `PoolModel` puts the trees of `TreeModel` on top of many sinks of
`SinkModel` used by many threads (C101); `DeployModel` puts a system configured by a document on
top of that (C117); `StackModel` puts `DeployModel` on the circular buffers (C121);
the histories of the model in time are executions of `ClockModel`, the sink model with threads and a clock (C125).  The others are arguments in English.

## Plan per property

| id | what is modelled | how it is proved |
|---|---|---|
| C01 | put/get/size as pc-machines over shared atomics | invariant + linearization points: trace projected on them is a run of the sequential bounded queue; per-thread traces are Inv·Lin·Ret |
| C02 | same | corollary of the invariant `size = length of abstract queue` |
| C03 | slots with busy flag and cell state (empty, under construction, full) | invariant: unique holder per busy slot |
| C04 | index/uninitialised access is `UB` | invariant; `capacity 0` refuted by execution |
| C05 | constructor arithmetic | arithmetic proof over N; wrap refuted |
| C06 | solo runs | induction on solo steps; lock-freedom refuted for all n |
| C07, C08, C10 | Event constructor | functional equality with independent spec |
| C09 | Event constructor as list of byte writes into memory | frame theorem |
| C11–C15 | bounded writer, three flush bodies | functional equality, decoder round trip, overflow iff |
| C16, C17 | syslog flush loop | exact characterisation; C17 refuted |
| C18 | `Sink::push` guard | case analysis against set-theoretic spec |
| C19–C24, C27, C28 | sink pc-machine over the abstract queue proved in C01 | inductive invariant `accepted = written ++ in flight ++ queued` |
| C22 | worker/destructor | invariant + solo termination measure |
| C23, C25, C26, C29 | same machine | refuted by explicit schedule, true part proved (`_partial`; C29, C77 after `async_flush()`: the flag stays until the first flush that wrote an event, which empties the stream's buffer) |
| C30 | same machine | solo progress |
| C31 | constructor | arithmetic with explicit wrap |
| C32–C35 | inductive tree of sinks | structural induction; C34 refuted |
| C36, C109 | construction/destruction history | invariant; reopen refuted |
| C37–C40, C114 | logger push, macros | case analysis; C38, C40 refuted in part |
| C41–C55 | logging system as a state machine over a heap of groups and loggers | coherence invariant by induction over histories; exact frame specs; refutations with witnesses |
| C56–C63 | parser over a YAML AST | structural induction over documents |
| C64, C65 | thread-local + atomic counter machine | invariant; C65 refuted |
| C66 | level table | exhaustive case analysis |
| C67, C68 | the direct calls on loggers; makeSink | exact frame specs over all reachable systems |
| C69–C73 | the whole of `applyOn` and `configure` | well-formedness predicate on trees, proved equivalent to a clean result; refutations with witnesses |
| C74–C77 | worker and clock | inductive invariants over timed histories; refutations for every burst size |
| C78–C80, C112 | the setters of Group called directly | exact frame specs; general refutation of inheritance; ring witness |
| C81, C82 | sink and circular buffer together (`FullModel`) | forward simulation to the sink over the ideal queue, built on the simulation of C01; transfer of C18–C22, C27, C28 |
| C86 | flags as sets of stores (`WeakModel`); loads read any of them, compare_exchange an unanswered one | forward simulation into `SinkModel`; converse simulation; counting invariant for rotations; the sink theorems carried over |
| C83–C85 | `Logger::push` as a pc-machine beside the logging system, with owners of sinks (`LogModel`) | induction over paths: what the call has seen; ownership invariant; refutations with schedules |
| C87, C88, C111 | every call as its accesses to shared memory and its operations on the recursive mutex (`RaceModel`) | invariant: the depth of the lock is that of the prefix already executed; tables of accesses shown exact; races characterised both ways; progress by what is left to do; `SysModel` and `GroupModel` change only what `RaceModel` writes |
| C89, C90 | `SinkModel` with a clock and `next_flush_` (`ClockModel`) | invariant relating the deadline the worker waits for, next_flush_ and the number of pending events; refutation for every number of rounds; potential argument for the number of wakes (each paid by half a period or by being turned away); every execution of `SinkModel` is one of `ClockModel` under some clock (`CoverProofs`) |
| C91 | overload resolution as a function of the type of the argument; fmt without arguments (`TextModel`) | the texts a format can stand for characterised exactly (every brace doubled), by induction; composed with C07, C08 |
| C92 | sections of the lock in `RaceModel` (`one_section`: taken once, never released in between) | invariant of `RaceModel`: whoever is between two accesses holds the lock; schedule in the middle of makeGroup |
| C93 | `ClockModel` of a file sink | the deadline of the worker is at most a period away from the request; a notified sleeper wakes first; schedule with a lost notification |
| C94 | `SinkModel`; the nested call is that of another client while the outer thread does not move | the oldest event stays reserved, so a reader never gets past it: induction over every schedule without the outer thread |
| C95 | `EndModel`: `FullModel` (sink over the circular buffer) whose events are the calls, stored by the model of the constructor of Event and rendered by `file_format` | composition of C07/C08/C10 (stored event), C11 (room in the buffer), C13/C14 (a line can be taken apart, one line per event), C82 (the sink over its buffer) |
| C96, C97, C110 | `LifeModel`: the calls of `SysModel` and `GroupModel`, the program's own pointers, multisinks' parts, destruction of an object once no pointer to it is left | invariant: nobody points to a destroyed object, every pointer is to an existing object, parts of a multisink are older than it; without rings a chain of holders ends at a root (pigeonhole) |
| C98 | `SinkModel` with a worker | the steps of these calls after the first do not depend on the state; induction over the moves of the other threads |
| C99 | `SinkModel` started without an open file | `opened` never goes back; without a worker the destructor's steps leave queue and output alone (invariant over every schedule); witness |
| C100 | `SinkModel`, weakly fair rounds (`SinkFairSpec`) | a measure over the whole state, (2·pushers + queue length) first, that every move of the thread everybody waits for lowers and no other move raises; such a thread exists in every state with a call running (from the invariants of flag and queue) |
| C101 | `PoolModel`: any number of leaf sinks (`SinkModel`), threads with the list of leaf calls (`TreeModel`) still to make | invariant: each leaf is reachable on its own; calls begun = pushes seen in the leaf ++ puts still to make; a thread is busy in at most one leaf; a leaf somebody will use is alive |
| C102 | same, weakly fair rounds over threads and workers (`PoolSpec`) | measure: calls still to make first, then the sum of the measures of C100 over the leaves; the one waited for is that of C100 in some leaf, or a thread between two leaf calls |
| C103, C104 | `SinkModel` with a wall clock; the constructor of the event reads it between the steps of push (`StampModel`) | invariant: the stamp of every event is between the times of its acceptance and of the return; transfer of C19; schedule of two threads; every execution of `SinkModel` has a stamped one (`CoverProofs`) |
| C105 | `SinkModel` over a stream with good()/bad state; refusals at any moment, what was refused may stay in the buffer or not (`IoModel`) | invariant for good streams, absorbing bad state, simulation of `SinkModel`; witness for the refutation |
| C106 | `SinkModel` with a throw out of the constructor of the event: terminate (NDEBUG) or a place that stays taken (`ThrowModel`) | invariant: the taken place stays, everything behind it stays; kept by every step; witness |
| C107, C113 | sinks of `SinkModel` numbered 0, 1, ..., all appending to one file (`ShareModel`) | each sink projects to `SinkModel`; invariant: file = whole records and the buffers hold whole records; witness for the spill |
| C108 | console sinks of `SinkModel` and the program, all writing to one stream (`ConsModel`) | each sink projects to `SinkModel`; the stream is the concatenation of the writes observed; visible is at least what each sink made visible (`ConsShown`: the pieces up to the last flush of the stream) |
| C115 | `YamlModel`; the parts that may be left out are given by `YamlTidySpec` | simulation of the two runs that ignores messages and flags, by induction on the document |
| C116 | `PoolModel`; entries into functions of the leaf sinks are read off the states by `PoolCallSpec` | invariant: entries so far + those still on the thread's list of leaf calls = those wanted by the calls started |
| C117 | `DeployModel`: the system after the document, a step per function of the system, `PoolModel` inside; `DeploySpec`: level and sink in force by the document, what is due where | projection onto `PoolModel` (C101) and from there to one sink (C18-C31); the system keeps groups and loggers as C60 leaves them; induction over the declared groups; records by C95 |
| C118 | `SyslogRunModel`: an execution of `SinkModel` cut where a flush begins; each part's events through `sys_flush` of `SyslogModel`, events as in `EndModel` | exact characterisation of one flush (C16, C17) over all parts; prefix property and bound of the queue (C19) at every point of the trace; the lock's invariant for the owner of a record; the overrun by a schedule built by induction on its length |
| C119 | `PoolModel` (threads, composites, leaf sinks, destructions) and `DeployModel` | a measure of each leaf sink, alive or being destroyed, that falls when the agent it depends on moves; sum over sinks and calls left; induction on fair rounds; existence of an end by descent on the same measure; then C117 |
| C120 | `configure` of `SysModel` on the script of the YAML model; `DeployModel` | C73 for the empty system gives the system C117 starts with (different names imply that nothing is nested in itself); names stay unique in the table of groups; getLogger with its warning is a step that begins a call on the fallback group's sink; plain programs leave groups, table (as a map) and the loggers' name and group alone |
| C121 | `StackModel`: document, system, loggers, composites, sinks, and the atomic operations of their buffers | forward simulation: every step of the stack is none or one step of `DeployModel`, with the same trace (from C82 for each sink); then C117 |
| C122 | same | those in the buffers can leave them (measure: operations left; some thread of the buffer need not wait, from the invariants of lock and slots); from a moment with nobody in a buffer, every step of `DeployModel` can be followed; then the descent of C119 along it |
| C123 | `FullModel` | refuted: a round after which the state is as before; solo runs: the measure of C122 |
| C124 | `StackModel`; fair rounds by `StackFairSpec` | in forty rounds of the stack either the measure of C119 falls or all rest: the stack runs beside `PoolModel` (C121), a thread in a buffer leaves it after at most 23 moves of its own (lock holders and slots as in C122), so every agent of `PoolModel` gets its turn; rounds exist by first emptying the buffers (C122) |
| C125 | `TimeModel` beside `ClockModel` | simulation: each step of the model in time is done by the worker or by one client thread, step by step through push, flush, the waits and the destructor; the bounds are then reached by the histories of C74–C76 |
| C126 | `StackModel`, `YamlModel` with any configurators | induction over the configurators: numbers, members and sizes of what they make; then as C121, C122, C124, which need only the capacities, and C117 with the settings of the loggers at the moment of each call; console output read on a terminal by C39/C95 record by record (`ConsoleRead`); sinks made later: invariant, the sinks of the system are a prefix of all (`AnyLater`) |

## Findings

Properties a user relies on that the code does not have, each with a machine-checked
witness (`_refuted`) and with the part that holds proved beside it:

| id | finding |
|---|---|
| C04 | a buffer of capacity 0: the first `put()` divides by zero |
| C05, C31 | size computations wrap around for huge capacities or message limits |
| C06 | the buffer documented as lock-free is not: a stopped reader blocks all; a thread holding a reference can block itself |
| C14 | a sink given a small buffer through the API writes past it (YAML prevents it) |
| C15 | events of the first second of 1970 are printed without date |
| C17 | a flush of the syslog sink that finds several events sends the first text again and again, and overruns its buffer (`ptr` is never rewound); two threads reach this with a buffer of any size (`C17_overrun_schedules_refuted`) |
| C23, C25, C26 | `flush()` of file and console sinks writes one event only; so with zero latency the destructor can lose events and `push()` can return before the event is written |
| C29, C77 | the stream is flushed only after `async_flush()`; a critical event may still be in the stream's buffer when the program dies |
| C34 | pushing to a composite sink without members is undefined behaviour |
| C36 | syslog cannot be opened again: the destructor stores `true` |
| C38 | the event that reports a format error is of level ERROR and appears in sinks of level CRITICAL |
| C40 | `WITHOUT_DEBUG_LOG_LEVEL` alone removes nothing |
| C47, C72 | a group can be made its own parent, by the API and by a document; later calls never return |
| C52, C62 | properties of a root group are not marked as its own, so they are lost when it gets a parent; redefining a root resets its sink and level |
| C54 | `makeGroup` reads the parent's properties before it takes the lock; a concurrent change is lost |
| C58 | a negative or textual number in a document ends the configuration by an exception |
| C59, C69 | elements of `sinks` that are no map or have no name, and refused parents, are skipped silently |
| C65 | the thread name is kept from its first use |
| C71 | an exception drops the problems found before it |
| C74, C75 | a round of the worker writes one event: the k-th event of a burst waits k periods, and destroying a sink with n events takes n-1 periods |
| C76 | the worker of a syslog sink is a busy loop; that of a file or console sink in use wakes twice per period, once in vain |
| C91, C114 | a single text is a value for the methods but a format for the macros, `log()` and, if it is a `std::string_view`, also for the methods: `{` in it gives a format error; a macro logs a character array to its end, not to its zero byte |
| C90 | while a thread is inside `flush()` and `next_flush_` has passed, the worker is a busy loop |
| C92 | `makeGroup` with a parent or a sink is not one step: parent and sink are looked up under the lock, which is released before the group is registered under it again |
| C93 | `async_flush()` notifies without the mutex of the condition variable: sent while the worker is on its way to sleep, the wake-up is lost and rotation waits a whole period |
| C94 | formatting happens with the event's place in the queue already taken: a formatter that logs to the same sink hangs for ever if the queue is full or the latency is 0; one that flushes always does |
| C96 | a group made its own parent (accepted, C47; or by Group::setParentGroup) is kept alive by itself after the system is gone: its sink is never destroyed, so what is still queued there is never written |
| C97 | after the LoggingSystem is destroyed, Logger::setSink(name), setGroup(name), setLevelFromGroup(name), setSinkFromGroup(name), and those of Group, use a dangling reference |
| C99 | a file that could not be opened at creation: no worker is ever started, so the destructor writes nothing of the queue, even if rotate() has opened the file since |
| C112 | `setLevel`/`setSink` on a root, and `unsetParentGroup`, do not mark the properties as the group's own, as their comments say |
| C79 | setters called on a group object do not reach the groups and loggers that inherit from it |
| C80 | `setParentGroup` on a group object can close a ring; later calls of the logging system never return |
| C83 | `Logger::push` reads `sink_` twice: if the sink is changed in between, the sink flushed is not the one the event went to |
| C84 | `Logger::push` uses `sink_` without a copy: replacing a sink by one of the same name can destroy it while a thread is inside |
| C87 | `makeGroup` with a parent and `getFallbackGroup` access the system without its lock, and logging reads level and sink without any: they race with the setters |
| C104 | an event gets its place in the queue before its time is read, so records of threads that log at the same time can stand in the wrong order of time |
| C105 | one refused write (disk full) leaves the stream in its failed state for good: everything logged later is lost until the file is opened again by rotation, and no call shows it; console sinks never recover |
| C106 | an exception that is no std::exception thrown while formatting ends the process (NDEBUG) or blocks the sink for good (debug): nothing behind it is written, flush() and the destructor hang |
| C113 | two file sinks with one path: a stream whose buffer is full passes on half a record, and a record of the other sink lands inside it |
| C123 | the spin lock of the buffer is not fair: under a scheduler that gives everybody turns, a single logging thread can stay in its first `put()` for ever, while the worker wakes, looks into the buffer and sleeps |

Seen while reading, outside the properties: `const_cast` on a const member in the
constructor of `Sink`; `sink_to_file.hpp` and `.cpp` name the parameters in different
orders; an unknown sink name given to `getLogger` is ignored; the console sink refuses a
message limit of 64 that the others accept.
