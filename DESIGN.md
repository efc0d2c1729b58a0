# Formal model of qtprotobuf in Rocq: design

Sources: `/repo` (read as text, never built).  All paths below are relative to `/repo`.
Coq files live in `rocq/theories`, logical name `Verif`.

## 1. Conventions

* Bytes are integers of type `Z` in `[0,256)` (`Forall is_byte`), buffers are `list Z`.
  C++ machine integers are `Z` values with explicit wrap (`mod 2^w`) or sign conversion at
  the places where the C++ code converts.
* Every C++ function that can raise, run into undefined behaviour or loop is modelled by a total Gallina
  function into the outcome type
  `Ok a | Throw e | UB reason | OutOfFuel`.  `UB` is a *distinct outcome*: it is
  produced where the C++ standard (or Qt's documented preconditions) leave the behaviour undefined
  (out-of-buffer read, too wide shift, null dereference, signed overflow, pointer arithmetic out of the array).
  `OutOfFuel` only says that the given fuel did not suffice; divergence is `forall fuel, run fuel = OutOfFuel`,
  termination is `exists fuel`.
* Each model definition carries a comment with the file and lines it models, and says what was simplified.
* Model files (`*Model.v`, ...) contain definitions only.  Specification files (`*Spec.v`) are small and
  independent of the model.  Proofs are in `*Proofs.v`.  `Properties*.v` contains only the
  property theorems, their non-vacuity examples and `Print Assumptions`.
* A property the code violates is recorded with a theorem `..._refuted` (a concrete witness in the
  faithful model) and the strongest true part is proved under `..._partial`.

## 2. Modelling environment (fixed choices)

* Qt 5 semantics (`QByteArray` sizes are `int`, `QVariant::isNull` looks into
  `QString`/`QByteArray`), little-endian host, two's complement, `int` 32 bit, data buffers owned by a
  `QByteArray` and so followed by a NUL byte.
* Library code outside the repository (Qt containers, `QVariant`, event loop, `libprotobuf` descriptors, the
  microjson submodule whose source is absent) is modelled by its documented behaviour only.

## 3. Properties, model and proof method

| id | modelled | proof |
|----|----------|-------|
| C01, C02 | varint writer/reader loops over the self-checking iterator | induction on the 7-bit groups; minimality against an independent positional spec |
| C03, C04, C05 | zigzag, two's complement and native-layout conversions | arithmetic over all `Z` in range (bitwise ops reduced to div/mod) |
| C06 | `encodeHeader`/`decodeHeader` | from C01, case analysis on wire type; injectivity and prefix-freeness |
| C07 | length-delimited writer/reader | from C01 plus list slicing lemmas |
| C08, C09, C10, C11 | list, map and enum handlers | induction on the list of elements; `ExactSpec.arrives` says what arrives bit for bit (also used for C05 and C12) |
| C12, C13 | schema, value trees, whole serializer and deserializer; separate record grammar of the wire format | induction on value/schema rank; each record is consumed by one step of the reader loop; any emission order |
| C14, C15, C16, C17, C18 | reader loop as a fold over records | induction on the record list; commutation for distinct fields |
| C19 | reader on cut records | case analysis on cut position, induction on the records before |
| C20, C21 | same reader, all inputs | refutation by whole families of hostile inputs; complete list of the ways a run may end; partial: termination measure and safety for inputs without a place that can be taken for a length >= 2^31 or a varint of more than ten bytes (`ReaderSpec.v`) |
| C22 | serializer with lazily created nested objects | exact: all values of a type are serialized iff no type reachable from it contains itself through singular fields (`CycleSpec.v`; pigeonhole on chains of fields) |
| C23, C50, C51 | reader | refutation and the proved part |
| C24, C25, C26, C27 | generated accessors, comparison, copy and move on an object heap | case analysis/induction on values; heap separation argument |
| C28 | `printFieldsOrdering`, `printProperties`, the look-ups of the serializer by index and by name | induction on the field list; characterisation of the messages in which two properties share a name |
| C29 | mutex + semaphore registry as a transition system with any number of threads | inductive invariant, progress argument |
| C30, C31 | registration list, plugin registry as state machines | induction on histories |
| C32, C33, C34 | request framing, stream reassembly loop | induction on frames/chunks, refutation by witness |
| C35 | error code table, `processReply` | exhaustive over the finite enum, all bodies |
| C36, C37, C38, C39, C40, C41 | signal/slot state machines of call, stream, client, QML stream | invariants over all event sequences, refutation by witness |
| C42 | conversion functions of all 22 Qt types together with the message serializer; Qt classes by their data members | component-wise round trip, then induction over the records; URLs and images by the hypothesis that Qt reads back what it writes |
| C43, C56 | JSON writer, JSON grammar (RFC 8259), the JSON value of a message | induction over the message; uniqueness of the value of a JSON text; a lexer invariant for the refutations (unescaped strings, nan, messages without fields, enum names by index) |
| C60, C61 | JSON reader with microjson as a parameter that is right on texts of a class closed under parts; a concrete splitter shows that there is one | induction on the size of the JSON value; each read value agrees with the value the text says; universal refutations for one-field messages |
| C62 | registrations printed for a list of files, as a list of pairs in any order; lookup by type | permutation independent lookup lemma, case analysis over shapes of fields |
| C63 | names printed for enumerations, visibility by full names; paths of declarations and C++ lookup as specification | lists of name parts instead of texts; injectivity of the texts |
| C64 | initializer lists and parameters of all constructors | induction on the fields |
| C65 | methods printed for a service, path sent by the channels | case analysis per procedure, disjointness of signatures |
| C66 | printInclude with its set of names; headers needed as specification | invariant over the set of remembered names |
| C67 | the two conversions over Z | arithmetic |
| C68, C69, C70 | a client with its replies, their handles and slots, contexts, engine and channels, under all sequences of events; what each call tells | a relation of how one reply evolves in one step, invariants over all histories |
| C71 | constructor and post of the HTTP/2 channel, tables of credentials as lists in any order, headers without case | lemmas on setting headers, induction over the credentials |
| C72 | the scan of schemas by CMake (lists, regular expressions, counting of braces), the list of expected files, the options string, the list of written files; as specification tokens of a source and what they declare | a relation between the scan and the reading of tokens that each line keeps |
| C73, C74 | the threads of calls and streams of the channel based on the gRPC library, the event queue of Qt and destructors, as a transition system; what the gRPC library returns is part of the events | an invariant per call or stream that links what was received, queued and reported; a rank argument for the waiting destructors |
| C75 | the declarations in the class of a message with names and signatures, the definitions in the source with what they do with the members, Q_PROPERTY lines, parameters, meta types | partition of the members by field and kind, names of kinds are told apart by prefixes, suffixes and first letters; permutation of what is declared and defined |
| C76 | the statements printed for comparison, copies, assignments and moves, with variables, setters and signals found by name, and what they do with the members | refinement: for every class the printed statements do what the object model of C24, C25 and C27 says, by induction on the fields; aliasing of both objects separately |
| C77, C78 | threads as stacks of event loops and of calls passed to other threads, with clients, channels, replies and timers, as a transition system | invariants of all histories that fix what precedes each report; a measure for termination; a ranking of threads for progress; stable sets of threads for the refutations |
| C79 | threads as stacks of handlers, slots, reads and aborts around the mutex of one reply or stream, as a transition system | invariants of all histories (who has the mutex, who waits for whom, what precedes each report); stable sets of threads for the deadlocks; a measure for progress |
| C80, C81 | the conversions between UTF-16 and UTF-8 that the serializers and channels call, applied to all strings of an object | induction over characters, units and bytes against the definitions of Unicode; a length argument for percent-encoded messages; the message level follows from C12 and C53 |
| C82 | `printComments`, and the printer of libprotobuf by its known behaviour: indentation and variables between dollar signs | a closed form of the printed text, read by a small scanner of C++ comments; an invariant on the length of the output for dollar signs |
| C83 | the converters between the integer types of fields and those of QVariant, doubles as mantissa and exponent, the properties and aliases that QML sees | arithmetic modulo powers of 2; rounding to 53 bits proved to give the nearest number |
| C84 | serializer of one schema and deserializer of another; what a message becomes is an inductive relation written from the protobuf documentation (`EvolveSpec.v`) | records of the sender are regrouped for the reader; induction over the message |
| C85 | the deserializer with room for a number of nested calls; a call without room is undefined | equality with the unlimited deserializer by induction over a rank of types, or over the fuel; induction over the stack for the refutation |
| C86 | the registrations with QML that a program of generated files makes; lookup of a name among them as Qt does it | characterisation of the registrations by induction over nested messages, for any permutation; injectivity of dotted names |
| C87 | header, source and meta object of a generated client, the meta types that the generated messages register, the search of GrpcStream in them | uniqueness of the method found, injectivity of names of classes and of registered names |
| C88 | the same header and source, with the types of C++ as a data type, and the includes of the header | permutation between declarations and definitions; case analysis over names; injectivity of paths |
| C89 | the same elements and clients as for C40 | invariant over all histories that couples returnValue, stream and the parity of the signals |
| C90 | QGrpcStatus with its unique pointer, programs over variables that hold statuses | refinement of a machine of values that says what programs may do and what they are told |
| C91 | both serializers | chains of readers and writers of either format: each step keeps the canonical form and the conditions of the next one |
| C92 | generator and serializer together: the lookups of a generated program from field number over property and type to handler (`LinkModel.v`) | the lookups agree with those of the schema that the files declare; then C12 and C84 |
| C93 | generator and JSON serializer together: the JSON names as C++ literals in the tables, the lookup by name, the handlers and the declared enumerators (`LinkJsonModel.v`) | the lookups agree with those of the schema and the names that the files declare; the reader does not depend on the order of the table; then C60. Other JSON names, enumerators with small letters and the names of the .proto file are refuted |
| C94 | JSON writer and reader with two schemas and two sets of names; generated programs from two versions of the files | the JSON value that the writer shows for a message stands, for the reader, for what `EvolveJsonSpec.reads_object` says; by induction on its size |
| C95 | methods of generated clients over HTTP/2 (`WholeModel`: request, network, reply or stream, deserialization), with servers as `WholeSpec` describes them | composition of C32, C33, C65, C71 and C92 |
| C96 | the same calls and streams, with a network that answers anything | cases over the end of the network operation; the theorems on arbitrary input of C20, C21, C34 and C53; refutation by answers that exist for every service |
| C97 | serializer and deserializer with members that are plain values, objects, lists and maps of objects, or values of Qt types | induction over the depth of the serializer, inside over the fields in the order they are written, with an invariant per field that composes over records; termination by induction over the message |
| C98 | lookups of a generated program at run time with the handlers for Qt types, and the Qt types library in front of its messages | what is found for a number is what the file declares (C28, C62), hence all programs from the files run with the same fields; then C97 |
| C99 | the model of C95 with a server from another version of the files (`UpgradeSpec`) | composition of C32, C33, C65, C71 and C92 for versions, in both directions |
| C100 | the model of C68; failures of calls, refused calls and failed reads (`ErrorSpec`) | an invariant over all histories that counts each status code among signals and failures |
| C101 | `NativeCallModel`: the name of the procedure (QString::arg), buffers in slices, what a thread of the channel computes, methods of a client over it; a server behind the gRPC library (`NativeCallSpec`) | composition of C92 (both directions), the names of procedures and C73 for all interleavings |
| C102 | as C101, with programs from two versions of the files (`UpgradeSpec`) | composition of C92_versions in both directions with C101's names and C73 for all interleavings |
| C103 | `IterModel`: all operations of the checked iterator with the state that an exception leaves behind, histories over any number of iterators and containers; `IterSpec`: offsets | simulation by induction over histories; refutations for every container |
| C104 | `QtJsonModel`: the JSON serializer on messages with fields of Qt types, to any depth; `QtJsonSpec`: what a program with Qt types holds where one without them holds messages of the library | same text by induction on fuel; reading by simulation with the reader of `JsonReadModel`; the round trip by composition with C60 and the conversions of C42; programs from the same files by C98 and a congruence of the reader in the order of tables |
| C105 | `LinkQtJsonModel`: the tables and handlers that the JSON serializer finds in a generated program with Qt types; `LinkQtJsonSpec`: names as the files say | lookups as in C93 and C98; the exchange by composition with C104 and congruence in the order of tables |
| C53 | deserializers of both formats and typed objects | invariant of the readers' loops |
| C54 | unary calls, framing and serializer together | composition of the round trip theorems |
| C55 | streams of a client and their channel | invariant over all histories of events |
| C44, C45, C46, C47, C57, C58 | string functions, options, descriptors as trees and the sequence of namespaces, declarations and definitions that each file consists of (single and multi mode) | induction on strings and descriptor trees; a separate reading of the printed text as places in namespaces; for C57 a specification of unqualified and qualified lookup, with hiding |
| C59 | the object model with chains of getters | induction on the chain; a finite value is not part of itself, so a chain visits no object twice |
| C48, C49 | ownership state machine, QML list operations | invariants over operation sequences |

Nothing in the list is considered inexpressible.  What stays outside the model is listed in section 5.

## 4. Findings

What the faithful model does not satisfy.  Each item names the theorem that proves it.  "For every" means that the
theorem quantifies over all such inputs or histories; otherwise it exhibits an execution.

Wire format

* Negative `int32` values are sent in five bytes, which another implementation reads as a different 64 bit number:
  `C04_negative_int32_refuted` (every negative value).
* Tags of more than 32 bits are truncated, not rejected: `C06_wide_tag_refuted` (every such tag).
* A second packed record of a field replaces the first: `C16_packed_concat_refuted` (for every pair of lists).
* An embedded message is replaced, not merged: `C23_merge_refuted` (for every pair of values).
* Wire types of known fields are not checked, unpacked records of repeated numeric fields are misread:
  `C50_wire_type_refuted`, `C50_unpacked_refuted`, `C50_mismatch_refuted` (for every such record).
* Unknown fields of a map entry are taken as its value; a missing message value is stored as null pointer:
  `C51_unknown_part_refuted`, `C51_missing_message_refuted`, `C53_null_map_value_refuted` (for every such entry).
* A `bool` sent as a multiple of 2^32 is read as false: `C52_bool_truth_refuted` (every multiple).
* A length of 2^31 or more is taken as negative: the reader goes back in the buffer, for ever
  (`C20_negative_length_refuted`) or until it fails with a field that was not sent set (`C18_negative_length_refuted`).
* Truncated records are read beyond the end of the buffer before the check, long varints are shifted too far:
  `C21_over_read_refuted`, `C21_shift_refuted`, `C21_jump_refuted` (for every such input); nothing else is undefined
  (`C21_kinds`).
* Serializing a message of a type that contains itself as singular field never ends: `C22_recursive_type_refuted`,
  `C22_cycle_diverges` (every such type); no other type has this defect (`C22_serialization_terminates`).

Message objects

* Comparing maps to messages with different keys dereferences a null pointer; so do assignment, setters, move
  assignment and deserialization into a used object: `C25_different_keys_refuted`, `C25_assignment_refuted`,
  `C24_message_setter_refuted`, `C27_move_assignment_refuted`, `C17_message_map_refuted`.
* Maps with null values compare equal although their keys differ; a null element of a repeated field crashes the
  comparison: `C25_null_values_refuted`, `C25_null_element_refuted` (for every such pair).
* Setters of repeated messages and maps to messages notify for equal content: `C24_container_setter_refuted` (whenever the
  pointers differ).
* Copies share the elements of repeated messages and maps to messages: `C26_shared_elements_refuted` (for every copy and
  every change of an element).
* A field `foo_data` beside a repeated message field `foo` makes the serializer read the wrong property:
  `C28_clash_refuted` (every message with such a pair).
* Builds without QML never free nested messages (`C48_no_qml_refuted`); with QML an object shared by two fields or a
  cycle is freed twice, one collected by the engine leaves a dangling pointer (`C48_shared_refuted`,
  `C48_cycle_refuted`, `C48_collected_refuted`).
* QML list property: no bounds check, an object appended twice is freed twice, a deleted object dangles:
  `C49_out_of_range_refuted`, `C49_twice_refuted`, `C49_deleted_refuted`.
* Qt types: null times, time specifications, invalid and 16 bit colours are not sent, rectangles at the edge of the
  range overflow: `C42_*_refuted`.

Registries

* Registration functions of a library loaded after the first use never run; two threads may run all of them twice, or
  return before they ran: `C30_late_library_refuted`, `C30_threads_twice_refuted`, `C30_threads_early_return_refuted`.
* The serializer of an unknown plugin is a null dereference: `C31_unknown_plugin_refuted`.

gRPC

* Stream reader: every chunk that ends within or right after a header loses that header, and with it the message and the
  place of the next one; an empty message after another one and everything received with the end of the reply is lost
  too: `C33_header_dropped_refuted`, `C33_split_header_refuted`, `C33_empty_message_refuted`,
  `C33_finished_reply_refuted` (the first three for every stream cut that way).
* A length from 2^31 up hangs the client, a first chunk below four bytes is read beyond its end:
  `C34_hostile_length_refuted`, `C34_short_chunk_refuted`.
* A missing or garbled `grpc-status` and a truncated response count as success: `C35_missing_status_refuted`,
  `C35_truncated_response_refuted`.
* A stream aborted while a retry is pending starts again: `C38_abort_during_retry_refuted`.
* `attachChannel` with two or more active streams uses invalidated iterators: `C39_several_streams_refuted`.
* QML `GrpcStream`: a change of a property of an open stream disables the element; equal elements share a stream and
  disable each other; the end of an old stream makes the element forget its new one: `C40_*_refuted`.
* A blocking call whose target is deleted while it waits dereferences null: `C41_target_deleted_refuted`.
* The native channel never reports the regular end of a stream: `C55_native_end_refuted`.
* Over the native channel messages that wait in the event queue are passed to the handlers after `abort()`, since Qt delivers queued
  calls of cut connections: `C38_native_queue_refuted`.
* The thread of a call over the native channel uses a plain pointer to the gRPC channel; if the last pointer to the
  channel object is dropped before the thread has made its call, it uses freed memory: `C74_channel_dropped_refuted`.
* A response that cannot be decoded reaches `callback` of a QML client as a half read object, without `errorCallback`; a C++
  callback is never called if the call fails; a QML call without channel dereferences null, one with invalid arguments
  is dropped silently: `C68_*_refuted`.
* The reply of a call with callbacks holds a pointer to itself, so it stays in memory after the end of the call until the context
  object or the engine is destroyed: `C69_callbacks_refuted`.  After the destruction of the client handles to its replies
  dangle: `C69_dangling_refuted`.
* A call whose channel is destroyed because the client got another one never ends, and its reply is never released:
  `C70_replaced_refuted`.
* An SSL configuration is silently ignored unless the URL says `https`, the default is `http`; the path of the channel's URL is
  lost; credentials named like a protocol header replace it, null values remove it: `C71_clear_text_refuted`,
  `C71_base_path_refuted`, `C71_protocol_refuted`, `C71_null_refuted`, `C71_case_refuted`.
* Requests allow gzip and deflate, but compressed responses are taken for messages: `C71_compression_refuted`.
* The timer of a blocking call goes on after its reply has come.  If a nested call keeps the outer one from returning until then, the outer
  one reads a destroyed reply: `C77_dangling_refuted`.  A call that fails emits the error signal of its client even if the
  client was destroyed while the call waited: `C77_client_gone_refuted`.
* Blocking calls hang if threads call clients of each other, if the thread of the client has no event loop, if the channel in use is
  released (also by `attachChannel`) and, even with the reply there, as long as a call made later in that thread waits:
  `C78_deadlock_refuted`, `C78_no_event_loop_refuted`, `C78_lost_reply_refuted`, `C78_nested_blocks_refuted`.
* Code that runs when `read` reports that data cannot be deserialized is called while `read` holds the mutex of the reply or stream: if it
  reads again, or aborts a reply, its thread waits forever and no message arrives any more (`C79_self_deadlock_refuted`,
  `C79_abort_deadlock_refuted`); if it is another thread and aborts, it and the thread of the operation wait for each other
  (`C79_cross_deadlock_refuted`).  A handler that subscribes to the method that it is called for changes the vector that
  `QGrpcStream::handler` iterates over: `C79_subscribe_refuted`.  A slot in another thread reads the newest message, not the one
  that it is called for: `C79_queued_reader_refuted`.
* Texts are cut off at U+0000 when they are read (the bytes are all there), a U+FEFF at the start is lost, and halves of surrogate
  pairs are written as question marks, so that keys of maps can become equal: `C80_nul_refuted`, `C80_mark_refuted`,
  `C80_lone_refuted`, `C80_lone_keys_refuted`.  `C80_round_trip` says that there are no other exceptions.
* The HTTP/2 channel does not decode `grpc-message`, which servers percent-encode: every message with a percent sign, a control character or a
  character that is not ASCII arrives differently (`C81_http2_message`, `C81_http2_encoded_refuted`).
* With the option COMMENTS, doc comments of three slashes that have a second line break the header: that line begins with a
  slash, the generator puts an asterisk before it, and the rest of the comment is compiled (`C82_slash_refuted`).  The same holds
  for an asterisk and slash within a line comment (`C82_star_refuted`); there are no other such comments
  (`C82_comment_partial`).  Comments are printed as templates, so that dollar signs and what is between them are lost, or
  end the generator (`C82_dollar_refuted`, `C82_dollar_fatal_refuted`, `C82_dollar_undefined_refuted`).
* Integers out of the range of a field are written as another number, and setProperty returns true; numbers of type double out of
  range, infinities and NaN are converted with undefined behaviour: `C83_range_refuted`, `C83_double_undefined_refuted`,
  `C83_qml_range_refuted`.  The text of a field is not accepted for it, while QML accepts any text: `C83_text_refuted`,
  `C83_qml_text_refuted`.  QML does not see 64 bit fields, with the exception of uint64, which it sees rounded: `C83_uint64_refuted`.

* A negative int32 in a field that has become int64 or uint64 in the next version of a schema is read as the number plus 2^32, as its
  sign is not extended when it is sent: `C84_widened_refuted`.  A number in a field that has become bool is read as false if its
  lower 32 bits are zero: `C84_bool_refuted`.  A number in a field that has become a list is lost: `C84_list_refuted`.

* Every server can stop every client: for each message class there is an answer of at most fifteen bytes with which a call never
  returns, and ten bytes with the top bit set are undefined behaviour whatever the class is.
  `C96_hang_refuted`, `C96_shift_refuted`, `C96_over_read_refuted`, `C96_stream_hang_refuted`.
* The gRPC channel builds the name of a procedure with two calls of QString::arg. If the name of the service contains a place such as `%1`, the
  name of the method is put there (`C101_name_refuted`). Names from .proto files cannot contain one; names that are passed to the constructor of
  a hand-written client can.
* The checked iterator does not survive its exceptions (C103): ++, --, +=, -= and = change the count of bytes left before they test it, so an iterator that is used after its exception was caught may be moved out of its container without notice (after `--` at the begin, `size` + 1 times `++` succeed), or throws although bytes are left. A failed assignment leaves the sizes of one container with a pointer into another. Negative counts of += and -= are only tested at the wrong end, and -= overflows for counts near INT_MAX. The deserializer itself stops at the first exception, so only user-defined deserializers are concerned, except for negative counts (C18).
* Vectors, quaternions and matrices of Qt lose digits in JSON (C104): their members are floats, which are written with six digits (C56), so different vectors have the same text. A Qt field that is `null` in the text gets the value of a default-constructed Qt object, while `{}` gives the value whose members are zero or empty, and a message without Qt types gets a null pointer.
* There is no limit on the nesting of messages (other implementations stop at 100): for a type that contains itself, ten bytes of
  well-formed input per level exhaust a stack of any size: `C85_unbounded_refuted`.

* Types in QML: a message Foo and an enumeration foo (two classes in C++) get one name, so one of them cannot be had:
  `C86_collision_refuted`.  The types of a file without package are registered in a module without name, which no import can
  name: `C86_no_package_refuted`.  The same holds for extra namespaces of several parts, for types and for values with
  names that start with an underscore: `C86_extra_refuted`, `C86_underscore_refuted`, `C86_underscore_value_refuted`.  In a package like a.b.a
  the code for QML does not compile, because the full name is looked up from inside: `C86_class_refuted`.

* The sign of zero: a negative zero in a singular float or double field is written, but the setter compares it with the zero
  of the new message by operator== and keeps that, so it always arrives as positive zero: `C05_negative_zero_refuted`.  In lists
  and maps, and for all other bit patterns (NaN payloads included), the bits are kept: `C05_single_field_partial`, `C08_list_exact`,
  `C10_scalar_map_exact`.

* GrpcStream: it asks QMetaType for the name of the class of request and response, but nested messages are registered by
  another name (Outer::Inner, while the class is Outer_QtProtobufNested::Inner).  A stream whose request or response is
  declared inside of another message is never opened, with InvalidArgument for every argument: `C87_nested_refuted`.
* Clients: a procedure named call (or stream, qjsEngine, qmlEngine) hides the function of that name which the methods use:
  `C88_functions_refuted`.  A procedure named like a keyword, for instance delete, is declared with that name: `C88_keywords_refuted`.
  Streaming procedures get and Get with the same request declare one method twice, and so do a stream get and a call streamGet:
  `C88_overloads_refuted`.  With one file for each message, the header of the client includes a file that does not exist for
  nested messages, `C88_includes_refuted`, and with folders does not find the messages of other packages, `C88_includes_partial`.

* GrpcStream: an element that forgot its stream (`C40_stale_end_refuted`) announces messages with a null value,
  `C89_null_refuted`; enabled again, it connects a second time and announces each message twice, `C89_announced_twice_refuted`.

* QGrpcStatus: assigning a status to one that was moved from uses a null pointer, `C90_assign_moved_refuted`; two statuses with the
  same code are equal whatever their messages, `C90_equal_refuted`.

* An empty string in the place of a message in a JSON map becomes a null pointer, `C53_json_null_map_value_refuted`.
* A negative zero in a singular field is transmitted, but the setter of the receiver takes it to be equal to the zero it holds: the
  receiver writes another JSON text than the sender, `C91_text_refuted`.

JSON

* The JSON name of a field is put between the quotation marks of a C++ literal as it is. With a quotation mark or a line end in it the
  generated code does not compile, or names something else; with a backslash the program uses another name (`C93_table_names`,
  `C93_json_name_refuted`).
* The generator gives enumerators a capital first letter, and the JSON serializer uses the names of the generated enumerators: `express`
  is written as `Express`, and read as -1 (`C93_enum_names_refuted`).
* A member with the name of the field in the .proto file (`full_name` instead of `fullName`) is ignored (`C93_original_name_refuted`).
* Strings are not escaped, not finite numbers and messages without fields give no JSON, enums are named by index, strings
  can add members: `C43_*_refuted`, `C56_enum_refuted`, `C56_injection_refuted`.  Floats, and doubles in lists, are written with
  six digits, so that different messages have the same text and do not come back: `C56_float_refuted`, `C56_double_refuted`,
  `C60_float_refuted`, `C60_double_refuted` (for every format that has no more than six digits, a sign and an exponent).
* On input, escape sequences stay in the string, numbers such as `1e2` or out of range become 0, enums given as numbers
  become -1, the map key `true` is read as false, `"NaN"` and the infinities become 0, null leaves an enum as it is and
  list elements of a wrong kind become default values, all without an error: `C60_*_refuted`, `C61_element_refuted`.  Enum fields given a
  bool, an array or an object become -1, message fields given a number, bool or array lose their value: `C61_enum_refuted`,
  `C61_message_refuted`.

Generator

* File names without suffix end the generator with an exception: `C45_no_suffix_refuted`.
* Classes that do not compile: a repeated field or map called like the signal of another field (`tags` and `repeated ...
  tags_changed`), a message field `m` beside a field `p`, fields called `meta_object`, `register_types` and the like, names that
  differ only in the first letter being a capital one, types called like the list of another one or like the message around them,
  fields like `_1st`, fields called like C++ keywords or `signals`, `slots`, `emit`, a field `parent`, two fields
  of one local enumeration (its meta type is declared twice): `C75_signal_refuted`, `C75_pointer_refuted`, `C75_taken_refuted`,
  `C75_capital_refuted`, `C75_list_refuted`, `C75_class_name_refuted`, `C75_identifiers_refuted`, `C75_keywords_refuted`,
  `C75_parameters`, `C75_meta_types_refuted`, each for all messages of that kind.  A list of messages `rows` and a field
  `rows_data` have properties of one name: `C75_property_names_refuted`.
* With QML, a list of a Qt type has a property whose function is declared, but never defined: `C75_qt_list_refuted`.
* Move assignment emits no signal for an enumeration that changes, and the source emits the signals of all its number fields,
  changed or not: `C76_move_enum_refuted`, `C76_move_number_refuted`.
* A service and a message can claim the same file: `C45_service_clash_refuted`.
* `EXTRA_NAMESPACE` must be the last option: `C46_namespace_not_last_refuted`.
* Nested messages that no field of the parent uses get no class; as map values they are mentioned but declared nowhere;
  in multi file mode siblings are used before their declaration: `C47_unused_refuted`, `C47_undeclared_refuted`,
  `C47_multi_siblings_refuted`.
* Forward declarations omit the extra namespace: `C44_multi_forward_refuted`.  Imports and the client source include
  headers that are not written: `C58_import_refuted`, `C58_service_header_refuted`.
* Message names that start with a small letter break the names of nested messages and of rpc types: the "only if" parts of
  `C57_field_names_partial` and `C57_method_names_partial`, and `C57_small_letter_refuted`, `C57_method_small_refuted`.
* Names of messages are printed without regard to what else is declared.  In package `foo.bar` the classes of package
  `bar` are not found, since `bar::X` is looked up in `foo::bar`; and in the class of a message with a nested message
  `X`, the class of the message `X` of the package is not: `C57_package_hidden_refuted`, `C57_nested_hidden_refuted`.
  In all other cases lookup is proved to find the right class: `C57_field_lookup_partial` and its like.
* The build reads schemas line by line to find out which files to expect.  Only tidy sources are read right.  Lines of comments that
  look like messages, several declarations or braces on a line, a name on the next line, and a square bracket that is
  not closed on its line all lead to missing or surplus files: `C72_comment_refuted`, `C72_comment_file_refuted`,
  `C72_same_line_refuted`, `C72_braces_refuted`, `C72_split_name_refuted`, `C72_brackets_refuted`.  A schema whose only
  message is called `No`, `Off` or the like gives no files, as CMake takes the list for false: `C72_false_name_refuted`.
  In multi file mode `globalenums.cpp` is written but not compiled: `C72_global_enums_refuted`; a message `GlobalEnums`
  without package is written to the same files: `C45_global_clash_refuted`.  Without package, headers cannot be excluded
  by their path: `C72_exclude_refuted`.
* Enumerations that a message declares but does not use in a direct field are never registered, so fields of other
  messages with that type throw when serialized; repeated Qt types and maps to them have no handler either:
  `C62_enum_elsewhere_refuted`, `C62_unsupported_refuted`.  `repeated bool` is printed with a list type that the library
  does not declare (so the message model excludes it): `C62_repeated_bool_refuted`.
* Enumerations of nested messages used elsewhere, of the message around a nested one, nested ones with an extra namespace,
  and those of messages with a small first letter are printed with names that do not exist: `C63_nested_refuted`,
  `C63_around_refuted`, `C63_extra_refuted`, `C63_small_refuted`.  Values with a small first letter give an initializer
  that does not exist, or clash: `C63_initial_refuted`, `C63_distinct_refuted`.
* A message whose first field is of its own type gets two copy constructors: `C64_own_type_first_refuted`.
* Client streaming is ignored, and procedures such as `Foo` and `streamFoo` clash: `C65_client_stream_refuted`,
  `C65_signatures_refuted`.
* Includes: a field of a type inside the message suppresses `globalenums.h`, the directory of other packages' enumerations
  is left out, enumerations and lists of inner classes are left out: `C66_*_refuted`.
* `Timestamp` counts microseconds instead of nanoseconds, negative ones before 1970: `C67_*_refuted`.

## 5. Trusted base

* The kernel of Coq 8.16.1 (with `vm_compute` in some examples).
* `Print Assumptions` stands behind every property theorem and prints "Closed under the global context" for all of them:
  no axiom is used, neither our own nor one of the standard library.  (`coqchk` lists the module type parameters of
  `Coq.ssr.ssrunder`, which the standard library loads with ssreflect; no theorem depends on them.)
* No `Admitted`, no section-less `Variable` or `Hypothesis`, no module types or functors, no kernel flags, no plugins.
  Section variables and hypotheses become explicit premises of the theorems.
* That the model is the program.  Each definition cites the lines it models, `seeded/LOG.jsonl` records how the
  theorems react to wrong programs.

Modelled, function by function:

| code | model |
|------|-------|
| `src/protobuf/qprotobufselfcheckiterator.h`, `qprotobufserializer.cpp`, `qprotobufserializer_p.h`, `qabstractprotobufserializer_p.h`, `qabstractprotobufserializer.cpp` (handlers and error paths) | `WireModel`, `MessageModel`, `RegistryModel` (handler registry), `IterModel` (the iterator as a class; not its conversion to an unchecked iterator) |
| the nested calls of the deserializer | `StackModel` (one unit of stack per nested message; not: the sizes of the frames) |
| registration of generated types with QML | `QmlTypesModel` (module, name and class; lookup by name as Qt does it is trusted; not: versions, reserved words of QML) |
| generated clients as classes: header, source, includes, meta object; search of GrpcStream | `ClientModel` (moc, QMetaType and the lookup of names by the compiler are trusted as described there; not: comments and guards of the header) |
| QGrpcStatus: constructors, assignment, comparison | `StatusModel` (other code that uses statuses does so by code and message only) |
| lookups of a generated program at run time | `LinkModel.v`: for each class the table of field numbers, the property found for a number (reading) and again by its name (writing), the handlers for its type, and the branch of the serializer model that a handler stands for. `LinkQtModel.v` adds fields of Qt types |
| lookups of a generated program that uses the JSON serializer | `LinkJsonModel.v`: the names in the tables as C++ literals, the property found for a name (reading) or by the name of the property (writing), the handlers of the JSON serializer and of registered types, the enumerators of the declared enumerations. `LinkQtJsonModel.v` adds fields of Qt types and the names of the library's own messages |
| calls and streams of generated clients as a whole | `WholeModel.v`: HTTP/2 and the binary serializer only; the network is a function from requests to their end; targets exist during the call |
| generated message classes: accessors, comparison, copy, move, lazily created members (`templates.cpp`, `qprotobuflazymessagepointer.h`) | `Values`, `ObjectModel`, `GetterSpec`, `OwnerModel` |
| `qqmllistpropertyconstructor.h` | `ListModel` |
| `qprotobufjsonserializer.cpp` | `JsonModel` (output), `JsonReadModel` (input) |
| `qtprotobuf.cpp`, `qprotobufserializerregistry.cpp` | `RegistryModel` |
| `qtprotobuf.cpp` and `qtprotobuftypes.h`: converters of numbers; `quick/qtprotobufquickplugin.cpp`; which number fields QML sees | `NumberModel` (not: properties of type float, double and bool; `QString::toDouble`, which is a parameter; the QML engine is modelled by ToInt32, ToUint32 and the conversion to double) |
| `qttypes/qtprotobufqttypes.cpp`, `QtCore.proto`, `QtGui.proto` | `QtTypesModel`, `QtFieldsModel` |
| `src/grpc`: `qgrpchttp2channel.cpp`, `qgrpcchannel.cpp` (through the interface of gRPC), `qgrpcasyncoperationbase`, `qgrpccallreply`, `qgrpcstream`, `qabstractgrpcclient`, `qgrpcstatus` | `FrameModel`, `CallModel`, `StreamModel` |
| `qgrpcchannel.cpp` 59-118, 145-174, 207-263: names of procedures, buffers, what one thread computes | `NativeCallModel` (the gRPC library and QString::arg are modelled by their interface) |
| the threads of `qgrpcchannel.cpp` and `qgrpcchannel_p.h`: calls and streams, their connections, deferred deletion and destructors | `NativeModel` (not: the synchronous call, see `BlockModel`; the time that the constructor of a stream waits for the request to be sent) |
| blocking calls: `QAbstractGrpcClient::call` with its detour through the thread of the client, `attachChannel`, `QGrpcHttp2Channel::call` with event loop and timer | `BlockModel` (not: code that continues after a call returned within a nested event loop; timers of streams; destruction of the channel based on the gRPC library during a call) |
| replies and streams used by several threads: `QGrpcAsyncOperationBase::read` and `setData` with their mutex, `QGrpcStream::handler`, `addHandler` and `abort`, `QGrpcCallReply::abort`, the error signal of `tryDeserialize` | `AsyncModel` (one operation; not: its destruction while it is used, handlers that run event loops, see `BlockModel`) |
| replies of asynchronous calls, callbacks and QML methods of generated clients (`qabstractgrpcclient.cpp`, `templates.cpp` 310-371), HTTP/2 channel only | `ReplyModel` |
| requests of the HTTP/2 channel, `qgrpccredentials.h` and the credentials classes | `RequestModel` |
| the texts of string fields and status messages (`QString::toUtf8` and `fromUtf8` where the serializers and channels call them) | `TextModel` |
| `src/grpc/quick/qquickgrpcstream.cpp` | `QuickModel` |
| `src/generator`: options, file names, field ordering and properties, namespaces, declarations, includes, type names | `GenModel`, `RegistryModel` (field tables) |
| `src/generator`: the class of a message: `messagedeclarationprinter.cpp`, `messagedefinitionprinter.cpp` | `GenClassModel` (declarations by name and types, bodies by what they do with a member; not: the text between them, guards of the meta types of maps) |
| `src/generator/baseprinter.h`: comments; the part of libprotobuf's `io::Printer` they use | `CommentModel` |
| `src/generator`: the bodies of comparison, copy, assignment and move (`messagedefinitionprinter.cpp` 211-353, `templates.cpp` 124-172, 222-235) | `GenBodyModel` (statements with the names in them; not: fields of Qt types) |
| `src/generator`: enumerations, registration of types, constructors, includes of several files, clients, Timestamp | `GenTypesModel`, `GenLookupModel` (the order of declarations of enumerations is not) |
| `cmake/QtPreParseProtoFile.cmake`; of `cmake/QtProtobufGen.cmake` the options and the list of generated files | `BuildModel` |

Modelled by documented behaviour only: CMake's lists, regular expressions and `if()`, Qt (`QByteArray`, `QString`, `QVariant`, `QHash`, `QMap`, signals and slots, the
event queue of a thread, `QNetworkReply`, `QMutex`, `QSemaphore`, `QDate` and the other value classes), the QML engine's ownership rules,
`libprotobuf`'s descriptors.

Not modelled: the microjson submodule, whose source is not in the repository (see below), the text of generated
method bodies beyond what the class, body and object models state, targets and dependencies in `QtProtobufGen.cmake` and other build files, SSL itself, logging,
`QMetaType` internals, memory exhaustion, unsynchronised use of message objects by several threads.

The functions of microjson that the JSON reader calls are a parameter of `JsonReadModel`, as are Qt's conversions of texts
to floating point numbers.  The theorems on JSON input assume `right_on` (`JsonReadSpec`): objects and arrays are split
into the texts of their parts, members in any order, and null is reported as an object with the text `null` (the reader
tests for that).  `JsonScan` defines such a splitter and proves `right_on` for it.  `QMetaProperty::write` with an invalid
`QVariant` is taken to write the default value, except for enums, where it writes nothing.

Abstractions used throughout, beside the comments at each definition:

* floating point numbers are bit patterns; comparison follows IEEE 754 (NaN, signed zeros), arithmetic does not occur;
* strings are the byte sequences on the wire, valid UTF-8 or not; only `TextModel` turns them into the UTF-16 units that a `QString` holds, and back (by Qt 5's behaviour);
* the iteration order of `QHash` and the order of fields on output are parameters: theorems hold for all orders;
* recursion and loops take fuel; theorems speak about all sufficient fuel, or about all fuel for divergence.
