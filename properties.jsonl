{"id": "C01", "title": "Concurrent buffer is a linearizable FIFO queue", "statement": "For a CircularBuffer of capacity at least 1, whatever the threads do, the calls of put(), get(), size(), avail() and capacity() behave as if executed one at a time, each at an instant between its call and its return, on a bounded FIFO queue: the n-th successful get() hands out the item of the n-th successful put(); nothing is lost, duplicated or reordered.", "quantifier": "all capacities >= 1, all item types, any number of threads, all programs of calls, all interleavings of the atomic operations", "why_tests_cant": "A test run exercises a handful of interleavings; the claim is over all of them, for any number of threads and any capacity.", "anchors": ["include/soralog/circular_buffer.hpp: CircularBuffer::put, get, size, avail, capacity, NodeRef"]}
{"id": "C02", "title": "put() refuses only when full, get() only when empty", "statement": "put() returns an empty reference only at an instant when the buffer holds exactly capacity() items; get() returns an empty reference only at an instant when it holds none; at every instant size() <= capacity() and size()+avail() = capacity(), and the built-in assertions never fire.", "quantifier": "all capacities >= 1, all reachable states of all interleavings", "why_tests_cant": "A test run exercises a handful of interleavings; the claim is over all of them, for any number of threads and any capacity.", "anchors": ["include/soralog/circular_buffer.hpp: put, get, size, avail, capacity"]}
{"id": "C03", "title": "A live reference owns its slot exclusively and sees a fully built, unchanging item", "statement": "While any reference returned by put() or get() is alive, no other live reference denotes the same slot, no thread is constructing an item in it, and every dereference yields exactly the item put() was called with (never an unconstructed, half-built or replaced one).", "quantifier": "all references, all threads, all interleavings, all capacities >= 1", "why_tests_cant": "A test run exercises a handful of interleavings; the claim is over all of them, for any number of threads and any capacity.", "anchors": ["include/soralog/circular_buffer.hpp: NodeRef, Node::init, put, get"]}
{"id": "C04", "title": "No undefined behaviour inside the buffer for capacity >= 1; capacity 0 is undefined", "statement": "For capacity >= 1 no schedule makes the buffer index outside its storage, divide by zero, read an unconstructed item or construct over an item someone can read. (For capacity 0 the very first put() does.)", "quantifier": "all capacities, all schedules", "why_tests_cant": "Undefined behaviour need not show in a run; absence must be shown for every schedule and capacity.", "anchors": ["include/soralog/circular_buffer.hpp: put, get, constructor", "include/soralog/sink.hpp: Sink(name, level, sinks) passes capacity 0"]}
{"id": "C05", "title": "Slots and their message areas never overlap and stay inside the allocation", "statement": "Whatever capacity, padding, node size and alignment, the byte range of each slot (header plus at least `padding` bytes of message area) lies inside the allocated block, is aligned, and is disjoint from every other slot's, provided the size computation does not exceed the range of size_t.", "quantifier": "all capacities, paddings, node sizes, alignments", "why_tests_cant": "Sizes are unbounded; tests use a few.", "anchors": ["include/soralog/circular_buffer.hpp: CircularBuffer(size_t, size_t)", "include/soralog/event.hpp: message_data_"]}
{"id": "C06", "title": "Buffer calls finish when run alone; the buffer is not lock-free", "statement": "From any reachable state in which no other thread is in the middle of a buffer call and no reference is alive, any single put(), get() or size query, run alone, returns after a bounded number of its own steps. Not from every state: if a thread stops inside a call, or holds a reference to the slot in turn, a call of another thread (or its own) never returns, so the buffer is not lock-free.", "quantifier": "all reachable quiescent states, all capacities >= 1", "why_tests_cant": "Termination under every schedule cannot be sampled.", "anchors": ["include/soralog/circular_buffer.hpp: put, get, size", "include/soralog/sink.hpp: class comment 'lock-free circular buffer'"]}
{"id": "C07", "title": "Message and logger name are stored exactly, up to the documented cut", "statement": "The stored message is the formatted text cut to the sink's maximum message length, the stored name is the logger name cut to 32 bytes; below the limits both are stored exactly, byte for byte, including embedded zero bytes; the level and timestamp are those of the call.", "quantifier": "all names, formats, arguments, lengths and limits", "why_tests_cant": "All lengths around the limits, all byte values.", "anchors": ["include/soralog/event.hpp: Event::Event"]}
{"id": "C08", "title": "A formatting failure turns into exactly one explanatory ERROR event", "statement": "If formatting the arguments throws a standard exception, the caller sees no exception; the event that is stored is named 'Soralog', has level ERROR and a text starting with 'Format error: ' (cut to the maximum length); otherwise the event is never altered this way.", "quantifier": "all formats, all exception texts, all maximum lengths", "why_tests_cant": "Every possible failing format.", "anchors": ["include/soralog/event.hpp: Event::Event catch block"]}
{"id": "C09", "title": "Creating an event writes only inside its own slot", "statement": "Constructing an event in a slot modifies no byte outside that slot's event header and message area, whatever the name, message and limits are, hence never corrupts a neighbouring event.", "quantifier": "all slots, names, formatted texts, maximum lengths not above the buffer's padding", "why_tests_cant": "Memory safety for all lengths.", "anchors": ["include/soralog/event.hpp: Event::Event", "include/soralog/circular_buffer.hpp: Node::init, constructor"]}
{"id": "C10", "title": "Thread information is recorded as configured", "statement": "With thread info NONE an event carries no thread number and no thread name; with ID it carries the number and no name; with NAME it carries both, the name being at most 15 bytes without zero bytes.", "quantifier": "all thread names (any 16-byte array), all numbers, all settings", "why_tests_cant": "All byte arrays.", "anchors": ["include/soralog/event.hpp: Event::Event switch", "include/soralog/sink.hpp: ThreadInfoType"]}
{"id": "C11", "title": "Text of a file / plain console record", "statement": "Each event appended by the file sink (and by the console sink without colour) is exactly: local date-time, '.', six-digit microseconds, two spaces, thread field if configured, level padded to 8, two spaces, name, two spaces, message, newline.", "quantifier": "all events, all thread-info settings, all buffer sizes large enough", "why_tests_cant": "All names, messages and numbers.", "anchors": ["src/impl/sink_to_file.cpp: flush, put_*", "src/impl/sink_to_console.cpp: flush, put_*"]}
{"id": "C12", "title": "Colour only decorates", "statement": "When thread name, logger name and message contain no escape byte: removing the escape sequences from a coloured console record gives exactly the plain record of the same event; a terminal shows the microseconds gray, the level bold in the colour of the level, the name bold, the message bold up to error and italic from debug on, all else plain, and is left plain after each record.", "quantifier": "all events and settings", "why_tests_cant": "All events.", "anchors": ["src/impl/sink_to_console.cpp: put_level_style, put_text_style, put_name_style, put_reset_style, flush"]}
{"id": "C13", "title": "Records are uniquely readable", "statement": "From the text of a file record one can recover the time stamp, thread field, level, name and message, if the name contains no run of two spaces and does not end with a space; so two different such events never produce the same line. A message without newline occupies exactly one line.", "quantifier": "all events with such names", "why_tests_cant": "Injectivity over all events.", "anchors": ["src/impl/sink_to_file.cpp: flush"]}
{"id": "C14", "title": "Formatting a record never runs past the output buffer", "statement": "For sinks created through the YAML configurator (any accepted settings), formatting any event never writes beyond the sink's buffer; for sinks created directly this holds whenever the buffer is at least the message limit plus the fixed worst-case overhead (95 bytes for file, 161 for coloured console).", "quantifier": "all events, all accepted settings", "why_tests_cant": "Memory safety over all settings and events.", "anchors": ["src/impl/sink_to_file.cpp: flush", "src/impl/sink_to_console.cpp: flush", "include/soralog/sink.hpp: Sink ctor auto-fix", "src/impl/configurator_from_yaml.cpp: parseSinkToFile, parseSinkToConsole"]}
{"id": "C15", "title": "The time printed is the event's time", "statement": "The date-time and microseconds printed for an event are those of the event's own time stamp, whatever was printed before.", "quantifier": "all time stamps, all sequences of events", "why_tests_cant": "All time stamps.", "anchors": ["src/impl/sink_to_file.cpp: flush (psec)", "src/impl/sink_to_syslog.cpp: flush (psec)", "src/impl/sink_to_console.cpp: flush (psec)"]}
{"id": "C16", "title": "Syslog priority mapping; trace never reaches syslog", "statement": "Critical, error, warning, info, verbose and debug events are sent with priorities EMERG, ALERT, WARNING, NOTICE, INFO, DEBUG; trace (and off/ignore) events are never sent.", "quantifier": "all events", "why_tests_cant": "Finite but claimed for all flush histories.", "anchors": ["src/impl/sink_to_syslog.cpp: flush switch"]}
{"id": "C17", "title": "Each event flushed to syslog is delivered with its own text", "statement": "When flush() sends n queued events to syslog, the i-th message received carries the text of the i-th event, and formatting stays inside the buffer.", "quantifier": "all sequences of queued events", "why_tests_cant": "Needs several events in one flush.", "anchors": ["src/impl/sink_to_syslog.cpp: flush (ptr never rewound)"]}
{"id": "C18", "title": "A sink accepts exactly the events its level admits", "statement": "push() on a non-composite sink queues an event if and only if its level is neither OFF nor IGNORE and is not above the sink's level; a rejected push has no effect whatever.", "quantifier": "all levels, all sink levels, all states", "why_tests_cant": "All states.", "anchors": ["include/soralog/sink.hpp: Sink::push"]}
{"id": "C19", "title": "File/console output is exactly the accepted events in order", "statement": "For every schedule of concurrent push(), flush(), rotate() calls and the background worker, the bytes handed to the destination are the concatenation of the records of a prefix of the accepted events, in acceptance order: nothing lost, duplicated, torn, reordered or interleaved; the accepted events not yet handed over are still queued or being written.", "quantifier": "any number of threads, all interleavings, all capacities >= 1, all settings", "why_tests_cant": "A test run exercises a handful of interleavings; the claim is over all of them, for any number of threads and any capacity.", "anchors": ["include/soralog/sink.hpp: Sink::push", "src/impl/sink_to_file.cpp: flush, run, rotate", "src/impl/sink_to_console.cpp: flush, run"]}
{"id": "C20", "title": "Events of one thread keep their order", "statement": "Two events pushed one after the other by the same thread appear in the destination in that order.", "quantifier": "all threads, all schedules", "why_tests_cant": "A test run exercises a handful of interleavings; the claim is over all of them, for any number of threads and any capacity.", "anchors": ["include/soralog/sink.hpp: Sink::push", "src/impl/sink_to_file.cpp: flush"]}
{"id": "C21", "title": "Only one flusher at a time", "statement": "The output buffer and the output stream of a sink are never used by two threads at once, whatever mix of pushes, explicit flushes, worker flushes and rotations is running.", "quantifier": "all schedules, any number of threads", "why_tests_cant": "A test run exercises a handful of interleavings; the claim is over all of them, for any number of threads and any capacity.", "anchors": ["src/impl/sink_to_file.cpp: flush_in_progress_", "src/impl/sink_to_console.cpp: flush_in_progress_", "src/impl/sink_to_syslog.cpp: flush_in_progress_"]}
{"id": "C22", "title": "Destroying a buffered sink loses nothing", "statement": "When the destructor of a file (successfully opened) or console sink with non-zero latency returns, every event accepted before has been handed to the stream, in order; and the destructor does return: the worker needs at most a bounded number of rounds.", "quantifier": "all states in which no other call is running, all schedules of worker and destructor", "why_tests_cant": "All queue contents, all schedules.", "anchors": ["src/impl/sink_to_file.cpp: ~SinkToFile, run", "src/impl/sink_to_console.cpp: ~SinkToConsole, run"]}
{"id": "C23", "title": "Destroying an unbuffered (zero latency) sink loses nothing", "statement": "When the destructor of a sink with zero latency returns, every event accepted before has been handed to the stream.", "quantifier": "all histories, all schedules", "why_tests_cant": "A test run exercises a handful of interleavings; the claim is over all of them, for any number of threads and any capacity.", "anchors": ["src/impl/sink_to_file.cpp: ~SinkToFile", "src/impl/sink_to_console.cpp: ~SinkToConsole", "include/soralog/sink.hpp: push"]}
{"id": "C24", "title": "The pending-size counter is exact", "statement": "The counter that triggers background flushing always equals the total message size of the events accounted and not yet written; it never underflows.", "quantifier": "all schedules", "why_tests_cant": "A test run exercises a handful of interleavings; the claim is over all of them, for any number of threads and any capacity.", "anchors": ["include/soralog/sink.hpp: size_", "src/impl/sink_to_file.cpp: size_ -="]}
{"id": "C25", "title": "flush() writes all queued events", "statement": "After flush() called by the only active thread returns, no event is queued.", "quantifier": "all queue contents", "why_tests_cant": "All queue lengths.", "anchors": ["include/soralog/sink.hpp: flush comment", "src/impl/sink_to_file.cpp: flush", "src/impl/sink_to_console.cpp: flush", "src/impl/sink_to_nowhere.cpp: flush", "src/impl/sink_to_syslog.cpp: flush"]}
{"id": "C26", "title": "Zero latency means written on return", "statement": "With latency 0, when push() returns the event has been handed to the stream.", "quantifier": "all histories; single-threaded and all schedules", "why_tests_cant": "A test run exercises a handful of interleavings; the claim is over all of them, for any number of threads and any capacity.", "anchors": ["include/soralog/sink.hpp: Sink::push", "src/impl/sink_to_file.cpp: flush"]}
{"id": "C27", "title": "Rotation never loses, splits or reorders records", "statement": "Across any number of rotations, concurrent with any pushes, every written record lies entirely in one file, files hold consecutive runs of the accepted events, and if re-opening fails output continues in the old file; a requested rotation is not forgotten: the next flush() that starts afterwards and completes attempts it, unless compare_exchange_weak fails spuriously, which delays it by one flush each time.", "quantifier": "all schedules, all outcomes of re-opening", "why_tests_cant": "A test run exercises a handful of interleavings; the claim is over all of them, for any number of threads and any capacity.", "anchors": ["src/impl/sink_to_file.cpp: rotate, flush"]}
{"id": "C28", "title": "After a crash the log is a prefix", "statement": "At every instant the bytes already given to the operating system are a byte-prefix of the concatenated records of the accepted events in order (per file).", "quantifier": "all crash points, all schedules, all partial drains of the stream buffer", "why_tests_cant": "Every crash point.", "anchors": ["src/impl/sink_to_file.cpp: flush"]}
{"id": "C29", "title": "A critical event is durable when the logging call returns", "statement": "When logger->critical() returns, the event has been handed to the operating system.", "quantifier": "all states", "why_tests_cant": "Every crash point.", "anchors": ["include/soralog/logger.hpp: Logger::push", "src/impl/sink_to_file.cpp: flush"]}
{"id": "C30", "title": "push() never drops and never blocks forever when run alone", "statement": "If the queue is full push() makes room itself: run alone from any quiescent state, an admitted push() returns after a bounded number of steps and the event has been accepted exactly once.", "quantifier": "all quiescent states, all capacities >= 1", "why_tests_cant": "Termination for all states.", "anchors": ["include/soralog/sink.hpp: Sink::push"]}
{"id": "C31", "title": "Buffer auto-fix", "statement": "After construction the sink's buffer is at least twice the maximum message length and at least the requested size (sizes below half of the size_t range).", "quantifier": "all requested sizes", "why_tests_cant": "All sizes.", "anchors": ["include/soralog/sink.hpp: Sink ctor"]}
{"id": "C32", "title": "Composite sink delivers to exactly the admitted leaves", "statement": "push() on a (nested) composite sink delivers the event to a leaf once for each path to it on which every sink's level admits the event, in declaration order, and to no other.", "quantifier": "all trees of sinks, all levels", "why_tests_cant": "All trees.", "anchors": ["include/soralog/sink.hpp: Sink::push else branch", "src/impl/multisink.cpp"]}
{"id": "C33", "title": "Composite flush and rotate reach every leaf", "statement": "flush()/rotate() on a (nested) composite sink flushes/rotates every leaf below it.", "quantifier": "all trees of sinks", "why_tests_cant": "All trees.", "anchors": ["src/impl/multisink.cpp: flush, rotate", "include/soralog/impl/multisink.hpp: async_flush"]}
{"id": "C34", "title": "A composite sink without members is harmless", "statement": "Pushing an event to a composite sink that has no member sinks has no effect.", "quantifier": "all levels", "why_tests_cant": "Undefined behaviour.", "anchors": ["include/soralog/sink.hpp: Sink::push, Sink(name, level, sinks)", "src/impl/configurator_from_yaml.cpp: parseMultisink"]}
{"id": "C35", "title": "The null sink swallows everything", "statement": "The built-in sink '*' accepts no event, its flush always returns and leaves it empty.", "quantifier": "all events, all states", "why_tests_cant": "All inputs.", "anchors": ["src/impl/sink_to_nowhere.cpp"]}
{"id": "C36", "title": "Syslog can be reopened", "statement": "After a syslog sink is destroyed a new one can be created. In fact it cannot: the destructor does not release the mark that syslog is in use.", "quantifier": "all sequences of constructions and destructions", "why_tests_cant": "All histories.", "anchors": ["src/impl/sink_to_syslog.cpp: syslog_is_opened_"]}
{"id": "C37", "title": "A logger delivers exactly the admitted events", "statement": "A logging call reaches the logger's sink if and only if its level is neither OFF nor IGNORE and not above the logger's level; so an event is output iff admitted by the logger and by the sink, apart from events whose formatting failed; a rejected call has no effect. Every call that was passed to the sink is followed by a synchronous flush of that sink.", "quantifier": "all levels, all loggers and sinks", "why_tests_cant": "All combinations and histories.", "anchors": ["include/soralog/logger.hpp: Logger::push, log, trace..critical"]}
{"id": "C38", "title": "Sinks never show events above their level", "statement": "No event whose (displayed) level is above the level of the sink appears in the sink's output.", "quantifier": "all events including failing formats", "why_tests_cant": "Needs failing formats at boundary levels.", "anchors": ["include/soralog/sink.hpp: push", "include/soralog/event.hpp: catch block"]}
{"id": "C39", "title": "Logging macros agree with logging methods", "statement": "SL_<LEVEL>(logger, ...) delivers an event exactly when and where the corresponding method call does, and evaluates its message arguments only if the logger's level admits the level.", "quantifier": "all levels and loggers", "why_tests_cant": "All levels and states.", "anchors": ["include/soralog/macro.hpp"]}
{"id": "C40", "title": "Build options remove the right macros", "statement": "WITHOUT_TRACE_LOG_LEVEL removes exactly trace macros; WITHOUT_DEBUG_LOG_LEVEL removes debug macros (and trace with them).", "quantifier": "all combinations of the two options", "why_tests_cant": "Compile-time configurations.", "anchors": ["include/soralog/macro.hpp", "src/impl/configurator_from_yaml.cpp: parseLevel"]}
{"id": "C41", "title": "Groups: level is that of the nearest overriding ancestor", "statement": "After any history of logging-system calls each group's level equals its own if it is a root or its level is overridden, and its parent's level otherwise.", "quantifier": "all histories of API calls (no redefinition of a non-root group name, no group made its own parent), all iteration orders", "why_tests_cant": "All shapes of group trees, all histories of operations, all hash-map iteration orders.", "anchors": ["src/logging_system.cpp: setLevelOfGroup, setParentOfGroup, makeGroup", "src/group.cpp"]}
{"id": "C42", "title": "Groups: sink is that of the nearest overriding ancestor", "statement": "After any history of logging-system calls each group's sink equals its own if it is a root or its sink is overridden, and its parent's sink otherwise.", "quantifier": "all histories as above", "why_tests_cant": "All shapes of group trees, all histories of operations, all hash-map iteration orders.", "anchors": ["src/logging_system.cpp: setSinkOfGroup, setParentOfGroup, makeGroup", "src/group.cpp"]}
{"id": "C43", "title": "Loggers follow their group", "statement": "After any history each live logger whose level (sink) is not overridden has exactly its group's level (sink).", "quantifier": "all histories as above", "why_tests_cant": "All shapes of group trees, all histories of operations, all hash-map iteration orders.", "anchors": ["src/logging_system.cpp", "src/logger.cpp"]}
{"id": "C44", "title": "Changing a group's level affects exactly the inheriting subtree", "statement": "setLevelOfGroup(g, l) sets the level of g, of every group inheriting its level from g through non-overridden links, and of every non-overridden live logger in those groups to l, and changes nothing else; resetLevelOfGroup likewise with the parent's level.", "quantifier": "all reachable systems, all groups, all levels, all iteration orders", "why_tests_cant": "All shapes of group trees, all histories of operations, all hash-map iteration orders.", "anchors": ["src/logging_system.cpp: setLevelOfGroup"]}
{"id": "C45", "title": "Changing a group's sink affects exactly the inheriting subtree", "statement": "setSinkOfGroup(g, s) sets the sink of g, of every group inheriting its sink from g, and of every non-overridden live logger in those groups to s, and changes nothing else; resetSinkOfGroup likewise.", "quantifier": "all reachable systems, all groups, all sinks, all iteration orders", "why_tests_cant": "All shapes of group trees, all histories of operations, all hash-map iteration orders.", "anchors": ["src/logging_system.cpp: setSinkOfGroup"]}
{"id": "C46", "title": "Re-parenting affects exactly what is inherited", "statement": "setParentOfGroup(g, p) makes p the parent of g; g and its inheriting descendants take over the non-overridden properties; if p was a child of g, p first becomes a root; overridden properties and unrelated groups and loggers do not change.", "quantifier": "all reachable systems", "why_tests_cant": "All shapes of group trees, all histories of operations, all hash-map iteration orders.", "anchors": ["src/logging_system.cpp: setParentOfGroup"]}
{"id": "C47", "title": "The group graph stays acyclic and every call terminates", "statement": "After any history of logging-system calls no group is its own ancestor, hence every system call terminates; a re-parenting that would create a cycle of length at least three is refused without effect.", "quantifier": "all histories", "why_tests_cant": "All shapes of group trees, all histories of operations, all hash-map iteration orders.", "anchors": ["src/logging_system.cpp: setParentOfGroup (cycle check, fn recursion)", "src/impl/configurator_from_yaml.cpp: parseGroup"]}
{"id": "C48", "title": "Calls naming something unknown fail without effect", "statement": "Every set/reset call returns true iff the named group / logger / sink / parent exist (and no cycle is requested), and when it returns false nothing observable changes.", "quantifier": "all reachable systems, all names", "why_tests_cant": "All shapes of group trees, all histories of operations, all hash-map iteration orders.", "anchors": ["src/logging_system.cpp: set*Of*, reset*Of*"]}
{"id": "C49", "title": "getLogger returns the one live logger of that name", "statement": "While a logger is alive getLogger with its name returns that same logger unchanged, whatever group, sink or level is asked; otherwise a new logger is created with the requested attributes.", "quantifier": "all histories, all names", "why_tests_cant": "All shapes of group trees, all histories of operations, all hash-map iteration orders.", "anchors": ["src/logging_system.cpp: getLogger"]}
{"id": "C50", "title": "Unknown group falls back", "statement": "getLogger for an unknown group attaches the new logger to the fallback group, which is the first group ever made unless changed by setFallbackGroup.", "quantifier": "all histories", "why_tests_cant": "All shapes of group trees, all histories of operations, all hash-map iteration orders.", "anchors": ["src/logging_system.cpp: getLogger, makeGroup, setFallbackGroup, getFallbackGroup"]}
{"id": "C51", "title": "Configure exactly once, before use", "statement": "getLogger throws before configure(); a second configure() throws whatever the first one returned; no exception of a configurator escapes; a configured system without groups is reported as error.", "quantifier": "all configurators, all histories", "why_tests_cant": "All shapes of group trees, all histories of operations, all hash-map iteration orders.", "anchors": ["src/logging_system.cpp: configure, getLogger"]}
{"id": "C52", "title": "Explicit settings survive", "statement": "A level or sink explicitly set for a group is marked overridden and is not lost when the group is later given a (new) parent; after unsetParentOfGroup all properties are kept as the group's own.", "quantifier": "all histories", "why_tests_cant": "All shapes of group trees, all histories of operations, all hash-map iteration orders.", "anchors": ["src/group.cpp: setLevel, setSink, unsetParentGroup", "include/soralog/group.hpp comments"]}
{"id": "C53", "title": "makeGroup validates its arguments", "statement": "makeGroup throws, leaving the system unchanged, if the parent or sink name is unknown or a root has no level; otherwise the group has the given parent, the given or inherited sink and level, with overridden flags set exactly for given ones of a non-root.", "quantifier": "all reachable systems, all arguments", "why_tests_cant": "All shapes of group trees, all histories of operations, all hash-map iteration orders.", "anchors": ["src/logging_system.cpp: makeGroup", "src/group.cpp: Group::Group"]}
{"id": "C54", "title": "Concurrent makeGroup is atomic", "statement": "makeGroup called concurrently with level/sink changes behaves as if the calls were executed one after the other: the new group is never left with a stale inherited property.", "quantifier": "all interleavings of two calls", "why_tests_cant": "A test run exercises a handful of interleavings; the claim is over all of them, for any number of threads and any capacity.", "anchors": ["src/logging_system.cpp: makeGroup (constructs before locking)"]}
{"id": "C55", "title": "Loggers always have a sink", "statement": "Every logger obtained has a usable sink, provided every root group was made with a sink.", "quantifier": "all histories", "why_tests_cant": "All shapes of group trees, all histories of operations, all hash-map iteration orders.", "anchors": ["src/group.cpp: Group::Group", "src/logger.cpp: setSinkFromGroup", "src/logging_system.cpp: configure"]}
{"id": "C56", "title": "Level names", "statement": "The YAML level names off, critical/crit, error, warning/warn, info, verbose, debug/deb, trace denote the respective levels, any other scalar is an error, and IGNORE cannot be configured.", "quantifier": "all strings", "why_tests_cant": "All YAML documents.", "anchors": ["src/impl/configurator_from_yaml.cpp: parseLevel", "include/soralog/level.hpp"]}
{"id": "C57", "title": "Reserved name '*'", "statement": "No configuration document can define or replace a sink or group named '*'.", "quantifier": "all documents", "why_tests_cant": "All YAML documents.", "anchors": ["src/impl/configurator_from_yaml.cpp: parseSink, parseGroup"]}
{"id": "C58", "title": "Only sane numeric settings reach a sink", "statement": "A sink built from a document has capacity >= 4 (or default), message limit >= 64 (or default), buffer >= 4 event headers (or default), latency >= 0 (or default); any other number is reported as a warning and the default is used.", "quantifier": "all documents, all integers", "why_tests_cant": "All integers, signed/unsigned conversions.", "anchors": ["src/impl/configurator_from_yaml.cpp: parseSinkTo*"]}
{"id": "C59", "title": "Every rejected part of a document is reported", "statement": "If any sink or group of the document is skipped, configure() reports has_error or has_warning and a message mentioning it.", "quantifier": "all documents", "why_tests_cant": "All YAML documents.", "anchors": ["src/impl/configurator_from_yaml.cpp: parseSinks, parseSink, parseGroup, run"]}
{"id": "C60", "title": "The group tree of the document becomes the group tree of the system", "statement": "For a well-formed document (distinct names, known sinks, valid levels) every group exists afterwards, with the enclosing group as parent, the given or inherited sink and level, '*' sink for roots without sink; a group marked is_fallback (the last such) is the fallback, else the first.", "quantifier": "all well-formed documents, any depth", "why_tests_cant": "All YAML documents.", "anchors": ["src/impl/configurator_from_yaml.cpp: parseGroups, parseGroup"]}
{"id": "C61", "title": "Results of chained configurators accumulate", "statement": "With a previous configurator, errors and warnings of both are in the result; neither hides the other.", "quantifier": "all documents and previous results", "why_tests_cant": "All YAML documents.", "anchors": ["src/impl/configurator_from_yaml.cpp: run"]}
{"id": "C62", "title": "Redefining a group keeps what is not mentioned", "statement": "A later document that redefines an existing group changes only the properties it mentions.", "quantifier": "all documents", "why_tests_cant": "All YAML documents.", "anchors": ["src/impl/configurator_from_yaml.cpp: parseGroup"]}
{"id": "C63", "title": "Composite sinks from documents are well founded", "statement": "Every composite sink built from a document refers only to sinks created before it, so pushing and flushing terminate; unknown members are skipped with a warning.", "quantifier": "all documents", "why_tests_cant": "All YAML documents.", "anchors": ["src/impl/configurator_from_yaml.cpp: parseMultisink"]}
{"id": "C64", "title": "Thread numbers are unique and stable", "statement": "Two threads never get the same thread number, a thread always gets the same, numbers are 1..n in order of first use.", "quantifier": "all schedules, any number of threads", "why_tests_cant": "A test run exercises a handful of interleavings; the claim is over all of them, for any number of threads and any capacity.", "anchors": ["include/soralog/util.hpp: getThreadNumber"]}
{"id": "C65", "title": "Events carry the current thread name", "statement": "After a thread renames itself its later events carry the new name (cut to 15 bytes).", "quantifier": "all histories of renames and events", "why_tests_cant": "All histories.", "anchors": ["include/soralog/util.hpp: getThreadName, setThreadName"]}
{"id": "C66", "title": "Level names and order", "statement": "The levels are totally ordered OFF < CRITICAL < ERROR < WARN < INFO < VERBOSE < DEBUG < TRACE < IGNORE; names of different levels differ and fit in 8 characters; one-letter forms of the seven event levels differ.", "quantifier": "all levels", "why_tests_cant": "Finite: exhaustive.", "anchors": ["include/soralog/level.hpp"]}
{"id": "C67", "title": "A call on a logger changes exactly that logger", "statement": "setLevel, resetLevel, setSink, resetSink, setGroup and their ...FromGroup forms on a logger, and the corresponding calls of the logging system by name, change exactly the named attribute of that one logger: the level (sink) becomes the given one and is its own, or that of the group and inherited; setGroup takes over level and sink exactly where they are not its own. No other logger, group or sink changes.", "quantifier": "all reachable systems, all loggers, all arguments", "why_tests_cant": "All histories.", "anchors": ["src/logger.cpp", "src/logging_system.cpp: setGroupOfLogger, setSinkOfLogger, resetSinkOfLogger, setLevelOfLogger, resetLevelOfLogger"]}
{"id": "C68", "title": "Making a sink does not disturb what exists", "statement": "makeSink registers a new sink under its name, replacing the name's former meaning; existing groups and loggers keep their sinks, and other names their meaning.", "quantifier": "all reachable systems, all names", "why_tests_cant": "All histories.", "anchors": ["include/soralog/logging_system.hpp: makeSink"]}
{"id": "C69", "title": "A document is accepted without remarks exactly if it is well formed", "statement": "The configurator reports neither errors nor warnings exactly for well-formed documents (every property known, of the right type and in range; names given and not reserved; referenced sinks defined before; levels given for roots), and what it then does is exactly what the document says, in document order.", "quantifier": "all documents", "why_tests_cant": "All YAML documents.", "anchors": ["src/impl/configurator_from_yaml.cpp: applyOnYaml"]}
{"id": "C70", "title": "The fallback configurator makes a usable system", "statement": "ConfiguratorFallback on a system without groups makes exactly one console sink and one group '*' with that sink and level, reports it as a warning without error, and afterwards every logger request, for any group name, gives a logger with the fallback level writing to that console sink.", "quantifier": "all levels, colors, reachable systems without groups", "why_tests_cant": "All YAML documents.", "anchors": ["src/impl/fallback_configurator.cpp: applyOn"]}
{"id": "C71", "title": "Problems found in a document are not lost", "statement": "Whatever the outcome of configure(), every problem found while reading the document is part of the reported message.", "quantifier": "all documents", "why_tests_cant": "All YAML documents.", "anchors": ["src/impl/configurator_from_yaml.cpp: run", "src/logging_system.cpp: configure"]}
{"id": "C72", "title": "No document makes a group its own ancestor", "statement": "After configure() with any documents the groups form a forest, so later calls on groups return.", "quantifier": "all documents and chains of documents", "why_tests_cant": "All YAML documents.", "anchors": ["src/impl/configurator_from_yaml.cpp: parseGroup", "src/logging_system.cpp: setParentOfGroup"]}
{"id": "C73", "title": "configure() terminates with the configurator's result", "statement": "configure() with any chain of documents returns; the result is that of the configurators, completed by an error if no group exists, by a warning for every group whose messages go nowhere, or the exception as an error; the system is in a state from which all guarantees for systems configured by hand hold.", "quantifier": "all chains of documents, any length and size", "why_tests_cant": "All YAML documents.", "anchors": ["src/logging_system.cpp: configure", "src/impl/configurator_from_yaml.cpp: applyOn"]}
{"id": "C74", "title": "An accepted event is handed over within the latency", "statement": "With latency L > 0, on a machine that wakes threads on time, an accepted event is written at most L after push(), even if nobody calls flush().", "quantifier": "all histories of pushes, flushes and waits, all latencies and capacities", "why_tests_cant": "All interleavings of the clock, the worker and the callers, bursts of any size.", "anchors": ["src/impl/sink_to_file.cpp: flush, run, async_flush, destructor", "src/impl/sink_to_console.cpp: flush, run", "src/impl/sink_to_syslog.cpp: flush, run"]}
{"id": "C75", "title": "Destroying a sink takes about a latency period", "statement": "The destructor of a sink with a worker returns within about one latency period, with everything written.", "quantifier": "all histories before the destruction, any number of queued events", "why_tests_cant": "All interleavings of the clock, the worker and the callers, bursts of any size.", "anchors": ["src/impl/sink_to_file.cpp: flush, run, async_flush, destructor", "src/impl/sink_to_console.cpp: flush, run", "src/impl/sink_to_syslog.cpp: flush, run"]}
{"id": "C76", "title": "An idle sink sleeps", "statement": "The worker of a sink with latency L wakes by itself at most once per L.", "quantifier": "all histories", "why_tests_cant": "All interleavings of the clock, the worker and the callers, bursts of any size.", "anchors": ["src/impl/sink_to_file.cpp: flush, run, async_flush, destructor", "src/impl/sink_to_console.cpp: flush, run", "src/impl/sink_to_syslog.cpp: flush, run"]}
{"id": "C77", "title": "What was logged gets visible in bounded time", "statement": "What was logged is given to the operating system within a time that depends on the latency only.", "quantifier": "all histories", "why_tests_cant": "All interleavings of the clock, the worker and the callers, bursts of any size.", "anchors": ["src/impl/sink_to_file.cpp: flush, run, async_flush, destructor", "src/impl/sink_to_console.cpp: flush, run", "src/impl/sink_to_syslog.cpp: flush, run"]}
{"id": "C78", "title": "A call on a group changes exactly that group", "statement": "setLevel, resetLevel, setSink, resetSink, their ...FromGroup forms, setParentGroup and unsetParentGroup called on a group object change exactly the named property of that one group (and whether it counts as the group's own); no other group, logger or sink changes; by an unknown name they have no effect.", "quantifier": "all systems, all groups, all arguments", "why_tests_cant": "All histories.", "anchors": ["src/group.cpp", "include/soralog/group.hpp"]}
{"id": "C79", "title": "A change made on a group itself reaches what inherits from it", "statement": "After setLevel or setSink on a group object, the groups and loggers that inherit the property show the new one.", "quantifier": "all systems, all groups", "why_tests_cant": "All histories.", "anchors": ["src/group.cpp: setLevel, setSink", "src/logging_system.cpp: makeGroup, getGroup"]}
{"id": "C80", "title": "Groups stay a forest whatever is called on them", "statement": "No sequence of calls on group objects makes a group its own ancestor.", "quantifier": "all systems, all sequences of calls", "why_tests_cant": "All histories.", "anchors": ["src/group.cpp: setParentGroup"]}
{"id": "C81", "title": "A sink works the same over its lock-free buffer as over an ideal queue", "statement": "For every interleaving of the atomic operations of the buffer, the flags, the counter, the references to slots and the stream, no operation is undefined, and the trace, the destination, the flags and the places of the threads are those of some execution of the sink over an ideal bounded FIFO queue.", "quantifier": "all schedules of any number of threads, all capacities from 1, all kinds of sinks", "why_tests_cant": "Unboundedly many interleavings.", "anchors": ["include/soralog/sink.hpp: push", "include/soralog/circular_buffer.hpp: put, get, size, NodeRef", "src/impl/sink_to_file.cpp: flush, run, rotate", "src/impl/sink_to_console.cpp: flush, run", "src/impl/sink_to_syslog.cpp: flush, run"]}
{"id": "C82", "title": "The guarantees of a sink hold over its buffer", "statement": "For the sink together with its circular buffer, at the granularity of single atomic operations: exactly the admitted events are accepted, each once, in each thread's order; the output is the records of accepted events in order of acceptance; between calls what is missing is exactly what the buffer holds; at most one thread uses the output; destruction (latency > 0) leaves nothing behind; rotation splits no record; a crash leaves a prefix.", "quantifier": "all schedules of any number of threads, all capacities from 1", "why_tests_cant": "Unboundedly many interleavings and crash points.", "anchors": ["include/soralog/sink.hpp: push", "include/soralog/circular_buffer.hpp", "src/impl/sink_to_file.cpp: flush, run, rotate, destructor", "src/impl/sink_to_console.cpp", "src/impl/sink_to_syslog.cpp"]}
{"id": "C83", "title": "An event logged during a reconfiguration is treated by a configuration the logger had during the call", "statement": "While other threads change levels, sinks, groups and parents, a call that logs an event pushes it only to a sink the logger had at some moment of the call, and only if at some moment its level let the event pass; if it does not push it, at some moment the level did not. If nothing changes during the call, the event is pushed if and only if it passes, to the logger's sink and no other, and that same sink is then flushed.", "quantifier": "all schedules of any number of threads, all histories of configuration calls", "why_tests_cant": "Unboundedly many interleavings.", "anchors": ["include/soralog/logger.hpp: push", "src/logging_system.cpp: set*OfLogger, set*OfGroup"]}
{"id": "C84", "title": "A sink is not destroyed while a thread logs to it", "statement": "From the moment a thread has entered push or flush of a sink until it leaves it, some owner keeps the sink alive, whatever other threads configure.", "quantifier": "all schedules of any number of threads, all histories of configuration calls", "why_tests_cant": "Lifetimes under all interleavings.", "anchors": ["include/soralog/logger.hpp: push", "include/soralog/logging_system.hpp: makeSink", "src/logging_system.cpp: setSinkOfLogger, setSinkOfGroup"]}
{"id": "C85", "title": "Logging never goes through a null sink", "statement": "In no state reached by configuration calls, concurrent with logging, does a logging call dereference a null sink.", "quantifier": "all schedules of any number of threads, all histories of configuration calls", "why_tests_cant": "Unboundedly many interleavings.", "anchors": ["include/soralog/logger.hpp: push", "src/logger.cpp: resetSink, setSinkFromGroup", "src/group.cpp: Group"]}
{"id": "C86", "title": "The guarantees of a sink do not depend on the order in which threads see its request flags", "statement": "need_to_flush_, need_to_rotate_ and need_to_finalize_ are stored with release, read with acquire or relaxed, and reset with compare_exchange_weak, so a thread may see old values and requests may be answered in any order. Still everything observable is as if they were sequentially consistent up to delay: exactly the admitted events are accepted, the output is the accepted events in order, one thread at a time writes, destruction (latency > 0) loses nothing, files hold consecutive runs, a crash leaves a prefix, and the file is re-opened at most as often as rotation was requested.", "quantifier": "all schedules, all choices of the store a load reads", "why_tests_cant": "Tests run on one machine, whose memory model is stronger.", "anchors": ["src/impl/sink_to_file.cpp: async_flush, flush, rotate, run, destructor", "src/impl/sink_to_console.cpp: async_flush, flush, run", "src/impl/sink_to_syslog.cpp: async_flush, flush, run"]}
{"id": "C87", "title": "Which calls may be made from several threads at once", "statement": "Functions of the logging system, and logging, may be called by any number of threads at once without a data race: whenever two threads are about to access the same plain memory and one of them to write, both are prevented by the lock.", "quantifier": "all calls of LoggingSystem, Group and Logger, any number of threads, all schedules", "why_tests_cant": "A race need not show up in a test.", "anchors": ["src/logging_system.cpp", "include/soralog/logging_system.hpp: mutex_, makeSink", "src/group.cpp", "src/logger.cpp", "include/soralog/logger.hpp: push, flush, getters", "include/soralog/group.hpp: getters"]}
{"id": "C88", "title": "Calls from several threads never block one another for ever", "statement": "Whenever calls are in progress, one of them can go on; all can run to their ends, in finitely many moves, whatever the scheduler does; the lock of the system is held only inside a call, by one thread, and exactly as often as that call has taken and not released it.", "quantifier": "all calls of LoggingSystem, Group and Logger, any number of threads, all schedules", "why_tests_cant": "Unboundedly many interleavings.", "anchors": ["src/logging_system.cpp", "include/soralog/logging_system.hpp: mutex_, makeSink"]}
{"id": "C89", "title": "An event is handed over one period per event before it, in every schedule", "statement": "For a file or console sink with a worker and any number of threads, on a machine that is fast compared with the latency: an event accepted when k accepted events were not yet handed to the stream is handed over itself at most (k+1) periods of the latency later, whatever the threads do meanwhile; events are handed over in the order of acceptance.", "quantifier": "all schedules of any number of threads, all histories, all times", "why_tests_cant": "Unboundedly many interleavings with the clock.", "anchors": ["src/impl/sink_to_file.cpp: flush, run, async_flush", "src/impl/sink_to_console.cpp: flush, run, async_flush", "include/soralog/sink.hpp: push"]}
{"id": "C90", "title": "The worker sleeps while somebody else is flushing", "statement": "While a thread is inside flush(), the worker of the sink wakes at most once per period.", "quantifier": "all schedules, all latencies", "why_tests_cant": "All interleavings with the clock.", "anchors": ["src/impl/sink_to_file.cpp: flush, run", "src/impl/sink_to_console.cpp: flush, run"]}
{"id": "C91", "title": "A text logged by itself appears as it is", "statement": "logger->info(text), and the macros SL_INFO(logger, text) etc., given one argument that is a text, log exactly that text (cut to the maximum length) with the level of the call, whatever characters it contains.", "quantifier": "all texts, all types of text (literal, array, pointer, string, string_view), all levels", "why_tests_cant": "All texts; which overload is chosen depends on the type.", "anchors": ["include/soralog/logger.hpp: trace ... critical, log", "include/soralog/macro.hpp", "include/soralog/event.hpp: Event"]}
{"id": "C92", "title": "Functions of the logging system take effect one at a time", "statement": "While a thread is inside a function of the logging system (makeSink, makeGroup, getLogger, setLevelOfGroup, ...), no other thread reads or changes any group, logger, sink registration or inherited property between the first and the last access of that function: concurrent calls behave as if made one after the other.", "quantifier": "all functions, any number of threads, all interleavings", "why_tests_cant": "All interleavings of the single accesses of two calls.", "anchors": ["src/logging_system.cpp: makeSink, makeGroup, getLogger, setParentOfGroup, setSinkOfGroup, setLevelOfGroup", "src/logging_system.cpp: LoggingSystem"]}
{"id": "C93", "title": "A requested rotation is carried out at once", "statement": "After rotate() of a file sink with a worker the file is reopened without waiting for the latency: rotate() wakes the worker. In any case it is reopened within one period of the latency.", "quantifier": "all schedules of any number of threads, all histories, all times", "why_tests_cant": "All interleavings with the clock; the wake-up can be lost in a window of a few instructions.", "anchors": ["src/impl/sink_to_file.cpp: rotate, async_flush, run, flush"]}
{"id": "C94", "title": "A message may be logged while another is being formatted", "statement": "If formatting an argument of a message (a user's formatter or operator<<) itself logs to the same sink or flushes it, the nested call returns, and then the outer one.", "quantifier": "all sinks, all states of the queue, all schedules of the other threads", "why_tests_cant": "All states of the queue and all schedules.", "anchors": ["include/soralog/sink.hpp: push", "include/soralog/event.hpp: Event", "include/soralog/circular_buffer.hpp: put, get", "src/impl/sink_to_file.cpp: flush"]}
{"id": "C95", "title": "What was logged can be read back from the file", "statement": "After the destruction of a file sink with a worker, the files hold, in order of acceptance, one line per accepted event and nothing else, and from each line date and time, microseconds, thread, level, logger name (32 bytes) and message (up to the maximum length) of the call can be read back; after a crash at any moment the complete lines are those of the first events accepted. Nothing is ever written past the end of the sink's buffer.", "quantifier": "all schedules of any number of threads, all calls (also with a broken format), all settings, all crash points", "why_tests_cant": "End-to-end over all inputs and interleavings.", "anchors": ["include/soralog/event.hpp: Event", "include/soralog/sink.hpp: push", "include/soralog/circular_buffer.hpp", "src/impl/sink_to_file.cpp: flush, rotate, run, destructor"]}
{"id": "C96", "title": "What nobody needs any more is destroyed", "statement": "When the logging system is gone and the program has let go of all its loggers, groups and sinks, every group and every sink is destroyed (so that every sink writes out what it still holds); at any time, a group or sink is destroyed as soon as neither the program nor the system nor a logger can get at it.", "quantifier": "all histories of calls, all groups, sinks, multisinks and loggers, all orders of release", "why_tests_cant": "All histories and orders of release.", "anchors": ["src/logging_system.cpp", "include/soralog/logging_system.hpp: sinks_, groups_, loggers_", "src/group.cpp", "src/logger.cpp", "include/soralog/sink.hpp: underlying_sinks_"]}
{"id": "C97", "title": "Loggers outlive the logging system", "statement": "A logger the program holds can be used after the LoggingSystem is destroyed: its group, the group's ancestors, its sink and the sinks under it exist as long as it does, and its functions do what they did before.", "quantifier": "all histories, all points at which the system is destroyed", "why_tests_cant": "All histories and all points at which the system is destroyed.", "anchors": ["src/logger.cpp", "include/soralog/logger.hpp: system_, group_, sink_", "src/group.cpp", "include/soralog/group.hpp: system_, parent_group_, sink_", "include/soralog/sink.hpp: underlying_sinks_"]}
{"id": "C98", "title": "With a worker, logging does not wait for the destination", "statement": "In a sink with a background worker, push() that finds room in the queue, the asynchronous flush and rotate() return after a fixed number of steps of the calling thread, without writing, without opening a file and without waiting for a thread that does; the asynchronous flush wakes a waiting worker.", "quantifier": "all states of the sink, all moves of all other threads in between", "why_tests_cant": "All interleavings: a test sees some of the points at which another thread may be writing.", "anchors": ["include/soralog/sink.hpp: push", "src/impl/sink_to_file.cpp: async_flush, rotate, flush", "src/impl/sink_to_console.cpp: async_flush", "src/impl/sink_to_syslog.cpp: async_flush"]}
{"id": "C99", "title": "A log file that can only be opened later is used from then on", "statement": "If its file cannot be opened when a file sink is created, the program goes on; nothing is written. When it can be opened, rotate() makes the sink use it, and from then on no accepted event is lost, up to and including the destruction of the sink.", "quantifier": "all schedules of any number of threads, all histories, every moment at which the file gets openable", "why_tests_cant": "All interleavings of flushes, rotations and destruction.", "anchors": ["src/impl/sink_to_file.cpp: SinkToFile, ~SinkToFile, flush, rotate"]}
{"id": "C100", "title": "Threads using a sink never block one another for ever", "statement": "Whatever calls of push, flush, async_flush and rotate are in progress on a sink, and however full its queue is: if no new call begins, the scheduler keeps giving every thread its turn and no thread is passed over for ever by the spin lock of the buffer (C123), all of them return, after a number of turns bounded by the number of threads and queued events. There is no deadlock and no livelock.", "quantifier": "all reachable states, any number of threads, all fair schedules (including all spurious failures and failed reopenings)", "why_tests_cant": "A liveness property over all fair schedules; a test that hangs or not shows one schedule.", "anchors": ["include/soralog/sink.hpp: push", "include/soralog/circular_buffer.hpp: put, get", "src/impl/sink_to_file.cpp: flush, run", "src/impl/sink_to_console.cpp: flush, run", "src/impl/sink_to_syslog.cpp: flush, run"]}
{"id": "C101", "title": "Composite sinks deliver to every leaf sink, whatever the threads do", "statement": "Threads log through trees of composite sinks that may share leaf sinks. At every moment each leaf sink has accepted from each thread a beginning of what that thread's calls were to bring there: every event once for each way from the root to the leaf on which all levels let it pass, in the order of the calls; all of it whenever the thread is between two calls, and when the leaf sink has been destroyed. A destroyed file sink with a worker has it all in its files. Using a leaf through composites is no different for it from using it directly.", "quantifier": "all trees, any number of threads, leaf sinks and calls, all schedules", "why_tests_cant": "All interleavings of calls that fan out over several sinks, each with its own worker.", "anchors": ["include/soralog/sink.hpp: push", "include/soralog/logger.hpp: push, flush", "src/impl/multisink.cpp: flush, rotate", "include/soralog/impl/multisink.hpp: async_flush"]}
{"id": "C102", "title": "Threads logging through composite sinks never block one another for ever", "statement": "Whatever calls of log, flush and rotate are in progress on loggers and composite sinks that share leaf sinks, in whatever order the composites name their members: if no new call begins, no sink is being destroyed, the scheduler keeps giving every thread and every worker its turn and no thread is passed over for ever by the spin lock of a buffer (C123), all of them return.", "quantifier": "all reachable states, all trees, any number of threads and leaf sinks, all fair schedules", "why_tests_cant": "A liveness property over all fair schedules and all orders in which sinks are visited.", "anchors": ["include/soralog/sink.hpp: push", "include/soralog/logger.hpp: push, flush", "src/impl/multisink.cpp: flush, rotate"]}
{"id": "C103", "title": "The time of an event is that of its call", "statement": "The time stamp of an event lies between the call that logged it and the return of that call. So the records of one thread, and records of calls one of which returned before the other began, stand in the order of their times.", "quantifier": "all schedules of any number of threads, all histories, all times", "why_tests_cant": "All interleavings of the steps of put() and of the clock.", "anchors": ["include/soralog/event.hpp: Event, timestamp", "include/soralog/circular_buffer.hpp: put", "include/soralog/sink.hpp: push"]}
{"id": "C104", "title": "Records stand in the order of their times", "statement": "In the output of a sink the time of a record is never earlier than that of the record before it.", "quantifier": "all schedules of any number of threads, all histories, all times (of a clock that is not set back)", "why_tests_cant": "All interleavings of the steps of put() and of the clock.", "anchors": ["include/soralog/event.hpp: Event, timestamp", "include/soralog/circular_buffer.hpp: put", "src/impl/sink_to_file.cpp: flush"]}
{"id": "C105", "title": "A write that failed does not silence the sink", "statement": "If the operating system refuses a write of a file or console sink for a while (disk full), what is logged after it accepts writes again still gets into the destination. In fact it does not: after one refusal nothing logged later gets into the file, flush() and the destructor included, and no call shows it; only a rotation that opens the file again ends this. Without a refusal nothing is missing.", "quantifier": "every schedule of any number of threads, every moment and number of refusals, every rotation, every split of the stream's output", "why_tests_cant": "a full disk at every moment of every schedule cannot be arranged in a test, and the absence of later records has to be shown for all continuations", "anchors": ["src/impl/sink_to_file.cpp: SinkToFile::flush, SinkToFile::rotate", "src/impl/sink_to_console.cpp: SinkToConsole::flush"]}
{"id": "C106", "title": "Whatever a formatter throws, the other messages are not affected", "statement": "If formatting an argument throws something that is not a std::exception (an int, the forced unwinding of a cancelled thread), the messages of other calls, before and after, are still written, and the sink can be flushed and destroyed. In fact: built with NDEBUG the process is terminated; without it the place in the queue stays taken for ever, so only events accepted before that one are ever written, fewer than the capacity are accepted after it, flush() hangs once it gets there, and the destructor of a sink with a worker does not return.", "quantifier": "every sink kind and configuration, every schedule of any number of threads, every moment of the throw and everything done afterwards", "why_tests_cant": "that nothing done afterwards ever gets the sink going again is a statement about all continuations", "anchors": ["include/soralog/circular_buffer.hpp: CircularBuffer::put", "include/soralog/event.hpp: Event::Event", "include/soralog/sink.hpp: Sink::push"]}
{"id": "C107", "title": "Two sinks may write to the same file", "statement": "If several file sinks are configured with the same path, nothing any of them writes is lost or overwritten: the bytes of each are in the file in its order, all of them once it is destroyed.", "quantifier": "every number of sinks, their configurations, threads and schedules, every moment at which a stream passes on any part of its buffer", "why_tests_cant": "which pieces of the buffers meet in the file depends on the interleaving of independent workers and on the streams' buffers; a test sees one of them", "anchors": ["src/impl/sink_to_file.cpp: SinkToFile::SinkToFile, SinkToFile::flush", "src/impl/configurator_from_yaml.cpp: ConfiguratorFromYAML::Applicator::parseSinkToFile"]}
{"id": "C108", "title": "Records on the console are whole, whoever else writes there", "statement": "If several console sinks, and the program itself, write to the same standard stream, the stream is given whole records and whole outputs of the program one after the other: those of each in its order, none twice, and all events of a sink once it is destroyed. What one of the sinks would have made visible alone is visible; each of them works as it would alone.", "quantifier": "every number of sinks, threads and schedules, everything the program writes, every moment at which the stream passes on any part of its buffer", "why_tests_cant": "which writes meet depends on the interleaving of independent workers and of the program", "anchors": ["src/impl/sink_to_console.cpp: SinkToConsole::SinkToConsole, SinkToConsole::flush"]}
{"id": "C109", "title": "There is at most one syslog sink", "statement": "Whatever syslog sinks are created and destroyed, at most one exists at any time, syslog is open exactly while one exists, and a second construction throws without any effect.", "quantifier": "all sequences of constructions and destructions", "why_tests_cant": "All histories.", "anchors": ["src/impl/sink_to_syslog.cpp: syslog_is_opened_"]}
{"id": "C110", "title": "Nothing in use is destroyed", "statement": "A group or sink that can be got at, from a pointer the program holds, through a logger or group it holds, or by name in a logging system that exists, is not destroyed, whatever is reconfigured or let go.", "quantifier": "all histories of calls and of acquired and released pointers, before and after the end of the logging system, every order of destruction", "why_tests_cant": "a use after destruction needs one particular history among all", "anchors": ["include/soralog/logger.hpp", "include/soralog/group.hpp", "include/soralog/logging_system.hpp", "include/soralog/impl/multisink.hpp"]}
{"id": "C111", "title": "Logging may go on while groups, sinks and loggers are made", "statement": "Any number of threads may log, flush and query loggers and groups while others make and look up groups, sinks and loggers or choose the fallback group, without a data race.", "quantifier": "every number of threads, every interleaving of their accesses, all such calls with all arguments", "why_tests_cant": "a race shows only in particular interleavings, if at all", "anchors": ["src/logging_system.cpp: LoggingSystem::makeGroup, LoggingSystem::getLogger, LoggingSystem::getSink, LoggingSystem::getGroup", "include/soralog/logger.hpp: Logger::push"]}
{"id": "C112", "title": "Properties set on a group are marked as its own", "statement": "After setLevel or setSink on a group, and after unsetParentGroup for level and sink, the group counts them as its own, as the comments of the functions say, so that a parent given later does not replace them.", "quantifier": "all systems, all groups, all arguments", "why_tests_cant": "All histories.", "anchors": ["src/group.cpp", "include/soralog/group.hpp"]}
{"id": "C113", "title": "The file of several sinks is a sequence of whole records", "statement": "If several file sinks are configured with the same path, the file is a sequence of whole records, those of each sink in its order. In fact this holds only while no stream's buffer fills up: a stream passes on its buffer in the middle of a record, and a record of another sink can then stand inside it.", "quantifier": "every number of sinks, their configurations, threads and schedules, every moment at which a stream passes on any part of its buffer", "why_tests_cant": "which pieces of the buffers meet in the file depends on the interleaving of independent workers and on the streams' buffers; a test sees one of them", "anchors": ["src/impl/sink_to_file.cpp: SinkToFile::SinkToFile, SinkToFile::flush"]}
{"id": "C114", "title": "A macro logs the message the method would log", "statement": "SL_<LEVEL>(logger, args...) logs the same message as the corresponding method with the same arguments. In fact not for a single text with braces, which the method logs as it is and the macro takes as a format.", "quantifier": "all levels, loggers and arguments", "why_tests_cant": "All arguments.", "anchors": ["include/soralog/macro.hpp", "include/soralog/logger.hpp"]}
{"id": "C115", "title": "What cannot be used in a document counts as not given", "statement": "A property that is not documented for its place, a property whose value cannot be used (an unknown level, stream or thread, a number out of its bounds, not a scalar), and an element of a list that is not a map have no effect but the messages: the system is left with the same sinks and groups with the same properties, and configuration ends in the same way, as if they were not in the document. (Not so a root group's level, nor a text where a number or a boolean is expected, which is an exception.)", "quantifier": "all documents, any number of such parts anywhere in them, all systems and previous configurators", "why_tests_cant": "documents are unbounded trees, and every part may be unusable in many ways and places at once", "anchors": ["src/impl/configurator_from_yaml.cpp: parseSink, parseSinkToConsole, parseSinkToFile, parseSinkToSyslog, parseMultisink, parseGroup, parseLevel"]}
{"id": "C116", "title": "Flushing and rotating reaches every member", "statement": "A flush() of a composite, and every logging call that passes the logger, flushes each sink below exactly as often as it occurs there, after asking it to flush asynchronously; a rotate() rotates each file sink as often as it occurs. No other thread's calls add to this or take from it, and during the call it is never exceeded.", "quantifier": "every tree of sinks (a sink may occur several times), every number of threads and every interleaving of their calls", "why_tests_cant": "calls of other threads on the same sinks interleave in unboundedly many ways", "anchors": ["src/impl/multisink.cpp: Multisink::flush, Multisink::async_flush, Multisink::rotate", "include/soralog/logger.hpp: Logger::push", "include/soralog/sink.hpp: Sink::push"]}
{"id": "C117", "title": "From the document to the files", "statement": "A program is configured by a document without problems and group names used once, and then only gets and drops loggers, logs, flushes and rotates. When it has let go of the system and the sinks are destroyed, each file of the document contains, line for line, exactly the calls due there: those whose level passes the level in force for the logger's group (its own or that of the nearest enclosing group giving one) and every level on the way from the sink in force to this file, once per way; each thread's in the order of its calls, with the logger's name. If the program dies before, the complete lines are the first of these. Until then no call on a live logger is turned away. The warnings that getLogger logs about unknown groups are among the calls.", "quantifier": "all documents without problems, all numbers of threads, loggers and sinks, all schedules, rotations, crash points and logged texts on one line", "why_tests_cant": "documents, schedules and crash points are unbounded; a test runs one document with few threads", "anchors": ["src/impl/configurator_from_yaml.cpp", "src/logging_system.cpp: LoggingSystem::getLogger", "include/soralog/logger.hpp: Logger::push", "include/soralog/sink.hpp: Sink::push", "src/impl/multisink.cpp", "src/impl/sink_to_file.cpp", "src/impl/sink_to_console.cpp"]}
{"id": "C118", "title": "What the syslog daemon receives, in every schedule", "statement": "As long as no flush() writes past the end of its buffer, the priorities of the messages given to the syslog daemon are those of the first accepted events in the order of acceptance (none for trace), however many threads log and flush; what is missing is still queued, and after the destruction of a sink with a worker nothing is missing. An event that a flush() finds alone is sent with its own text. A flush() finds at most a full queue, one event, and what is accepted while it runs, and stays inside its buffer if that many records of the greatest length fit. Every record is handed over by a flush() that the same thread has begun and not ended.", "quantifier": "all numbers of threads, all schedules, settings and logged texts without zero bytes", "why_tests_cant": "which events a flush() finds depends on the interleaving with all other threads", "anchors": ["src/impl/sink_to_syslog.cpp: SinkToSyslog::flush, SinkToSyslog::run, SinkToSyslog::~SinkToSyslog", "include/soralog/sink.hpp: Sink::push", "include/soralog/event.hpp: Event::Event"]}
{"id": "C119", "title": "Everything comes to its end", "statement": "Whatever any number of threads are doing at the moment (logging through composites, flushing, rotating, destroying sinks): if the scheduler forgets no thread and no worker and the spin locks of the buffers pass nobody over for ever (C123), every one of these calls returns, the destructors of sinks included, while other sinks stay in use. No moment is a dead end; from every one the program can let the system go, all sinks are then destroyed, and for a program configured by a document the files hold exactly the lines due of the calls made so far.", "quantifier": "all numbers of threads and sinks, all settings with a capacity of at least 1, all reachable states (also in the middle of destructions), all fair schedules", "why_tests_cant": "absence of deadlock and of endless waiting concerns all interleavings of callers, workers and destructors; a test sees one that ended", "anchors": ["src/impl/sink_to_file.cpp: SinkToFile::~SinkToFile, SinkToFile::run, SinkToFile::flush", "src/impl/sink_to_console.cpp: SinkToConsole::~SinkToConsole, SinkToConsole::run", "src/impl/sink_to_syslog.cpp: SinkToSyslog::~SinkToSyslog, SinkToSyslog::run", "include/soralog/sink.hpp: Sink::push", "src/impl/multisink.cpp"]}
{"id": "C120", "title": "The group a logger was asked for", "statement": "configure() with a document without problems (group names used once, at least one group) ends without an error, and warns about exactly the groups whose sink leads to nowhere. From then on getLogger(name, group), when no logger of that name is alive, answers with a new logger, and everything ever logged with it carries that name and belongs to the group meant: the group of the document with that name wherever it stands, otherwise the last one marked as fallback, otherwise the first. If the document has no such group the call logs one warning naming both groups, with a logger Soralog of the group that takes its place, in the name of the calling thread; otherwise it logs nothing.", "quantifier": "all documents without problems, all names asked for, all histories of getting and dropping loggers, logging, flushing and rotating before and after", "why_tests_cant": "the group depends on the whole document and on everything registered before; tests use a handful of names", "anchors": ["src/logging_system.cpp: LoggingSystem::getLogger, LoggingSystem::setFallbackGroup, LoggingSystem::configure", "src/impl/configurator_from_yaml.cpp: ConfiguratorFromYAML::applyOn, parseGroup", "include/soralog/logging_system.hpp: LoggingSystem::makeGroup"]}
{"id": "C121", "title": "From the document to the files, buffers included", "statement": "In the whole library - system configured by a document, loggers, composites, leaf sinks, and their circular buffers operated one atomic operation at a time - every program has a defined outcome (no slot is touched by two threads at once, nothing is read before it is written, the buffer is never popped empty), and the promises from the document to the outputs hold: after the destruction of a file sink its files hold exactly the messages due there by the document, thread by thread in the order of the calls; after a death between any two operations, the first of them; likewise console and syslog; and a call on a live logger always begins.", "quantifier": "all documents without problems, all programs of any number of threads, all interleavings of single atomic operations of the buffers, all moments of death", "why_tests_cant": "a race inside the buffer that loses a message needs one particular interleaving of several threads among unboundedly many; no test enumerates them", "anchors": ["include/soralog/circular_buffer.hpp: CircularBuffer::put, CircularBuffer::get, CircularBuffer::size", "include/soralog/sink.hpp: Sink::push", "include/soralog/logger.hpp: Logger::push", "src/impl/multisink.cpp", "src/impl/sink_to_file.cpp: SinkToFile::flush", "src/impl/sink_to_console.cpp: SinkToConsole::flush", "src/impl/sink_to_syslog.cpp: SinkToSyslog::flush", "src/impl/configurator_from_yaml.cpp: ConfiguratorFromYAML::applyOn"]}
{"id": "C122", "title": "No moment of the whole library is a dead end, buffers included", "statement": "In the whole library - system configured by a document, loggers, composites, leaf sinks, circular buffers operated one atomic operation at a time - whatever the threads are in the middle of, also inside the buffers and inside destructors: the threads and workers can go on so that every call returns. The program can also let the system go and come to its end, all sinks destroyed, and then the files hold exactly the lines due of the calls made so far.", "quantifier": "all documents without problems, all programs of any number of threads, all reachable states between single atomic operations", "why_tests_cant": "a deadlock needs one particular interleaving of lock, slots, flags and condition variables among unboundedly many", "anchors": ["include/soralog/circular_buffer.hpp: CircularBuffer::put, CircularBuffer::get, CircularBuffer::size, NodeRef", "include/soralog/sink.hpp: Sink::push", "src/impl/sink_to_file.cpp: SinkToFile::flush, SinkToFile::run, SinkToFile::~SinkToFile", "src/impl/sink_to_console.cpp", "src/impl/sink_to_syslog.cpp", "src/impl/multisink.cpp"]}
{"id": "C123", "title": "Every call gets through the buffer", "statement": "A logging call that is in the circular buffer of a sink gets through it, whatever the others do, as long as the scheduler keeps giving every thread its turn.", "quantifier": "all reachable states of a sink over its buffer, all numbers of threads, all fair schedules", "why_tests_cant": "starvation needs an unbounded schedule", "anchors": ["include/soralog/circular_buffer.hpp: CircularBuffer::put, CircularBuffer::get", "include/soralog/sink.hpp: Sink::push"]}
{"id": "C124", "title": "With fair spin locks every call returns, buffers included", "statement": "In the whole library, the buffers operated one atomic operation at a time: whatever calls of log, flush and rotate and whatever destructions of sinks are in progress, if every thread and every worker gets its turn again and again and nobody who is inside a buffer is passed over for ever by its spin lock, every call returns, after a number of rounds bounded by the calls and queues at that moment. Such schedules exist from every moment.", "quantifier": "all reachable states between single atomic operations, all numbers of threads, sinks and composites, all documents without problems, all fair schedules", "why_tests_cant": "livelock and starvation need unbounded schedules, over unboundedly many interleavings of lock, slots, flags and waits", "anchors": ["include/soralog/circular_buffer.hpp: CircularBuffer::put, CircularBuffer::get, CircularBuffer::size, NodeRef", "include/soralog/sink.hpp: Sink::push", "src/impl/sink_to_file.cpp: SinkToFile::flush, SinkToFile::run, SinkToFile::~SinkToFile", "src/impl/sink_to_console.cpp", "src/impl/sink_to_syslog.cpp", "src/impl/multisink.cpp"]}
{"id": "C125", "title": "The bounds on delays, destruction and wakes are reached by the code with its threads", "statement": "For every file or console sink with a worker, on a fast machine, with one thread that uses it: for every n below the capacity there is an execution in which n+2 events are pushed at one moment and one of them is not yet written n+1 latency periods later; one in which the destructor, called with n events queued, does not finish before n-1 periods have passed; one in which the worker wakes twice per period for as long as one likes. So the bounds of C75, C76, C89 and C90 cannot be improved.", "quantifier": "all sinks with a worker, all latencies, capacities, thresholds and sizes of messages, all n", "why_tests_cant": "executions of every length, for every configuration", "anchors": ["src/impl/sink_to_file.cpp: SinkToFile::flush, SinkToFile::run, SinkToFile::~SinkToFile", "src/impl/sink_to_console.cpp: SinkToConsole::flush, SinkToConsole::run, SinkToConsole::~SinkToConsole", "include/soralog/sink.hpp: Sink::push"]}
{"id": "C126", "title": "Whatever configures the system and whatever is changed, what was logged is where it was to go", "statement": "A system is configured by the fallback configurator or by any documents, with or without problems, on top of each other. The program then logs from many threads and meanwhile calls any function of the system, groups and loggers, and makes further sinks, of new names, with sizes a document could ask for. Every execution is defined, circular buffers included; after the destruction of a file sink its files hold exactly the calls that were to go there by the level and the sink of their logger at that moment, once per way through the composites, each thread's in order; after a crash, the first of these; likewise the output of console sinks (read on a terminal, with or without colours, line for line) and the messages of syslog sinks. The warnings that getLogger logs about unknown groups are among the calls. With fair locks every call returns, and the program can end from every moment with everything said in the files.", "quantifier": "all configurators, all documents, all programs, all numbers of threads, all schedules of single atomic operations", "why_tests_cant": "all documents and all interleavings of calls, changes, workers and crashes", "anchors": ["src/impl/configurator_from_yaml.cpp: ConfiguratorFromYAML", "src/impl/fallback_configurator.cpp: FallbackConfigurator::applyOn", "src/logging_system.cpp", "include/soralog/logger.hpp: Logger::push", "include/soralog/circular_buffer.hpp", "src/impl/sink_to_file.cpp", "src/impl/sink_to_console.cpp", "src/impl/sink_to_syslog.cpp", "src/impl/multisink.cpp"]}
