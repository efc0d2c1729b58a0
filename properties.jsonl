{"id": "C01", "title": "Unsigned integers survive the varint encoding", "statement": "Encoding any uint32 or uint64 value (also a bool, a field tag or a length) and decoding the produced bytes, followed by arbitrary further bytes, gives the same value back and leaves the read position exactly after the encoding.", "quantifier": "all values of the 32 and 64 bit type, all byte strings before and after the encoding", "why_tests_cant": "2^64 values times arbitrary surrounding buffers; tests sample a few boundary values.", "anchors": [{"file": "src/protobuf/qprotobufserializer_p.h", "symbols": ["serializeVarintCommon", "deserializeVarintCommon", "serializeBasic"]}, {"file": "src/protobuf/qprotobufselfcheckiterator.h", "symbols": ["QProtobufSelfcheckIterator"]}]}
{"id": "C02", "title": "Varint encodings are canonical", "statement": "The encoding of an unsigned value is the standard base-128 little-endian encoding: every byte but the last has its top bit set, the last one has not, the 7-bit groups sum to the value, and no shorter such byte string denotes the value; a uint32 takes at most 5 and a uint64 at most 10 bytes.", "quantifier": "all values of the 32 and 64 bit type and all alternative byte strings", "why_tests_cant": "Minimality compares against every other byte string.", "anchors": [{"file": "src/protobuf/qprotobufserializer_p.h", "symbols": ["serializeVarintCommon", "serializeBasic"]}]}
{"id": "C03", "title": "sint32/sint64 use the standard ZigZag code and round trip", "statement": "A sint value n is sent as the varint of 2n when n >= 0 and of -2n-1 when n < 0, the map is a bijection between the signed and the unsigned type, and decoding gives n back.", "quantifier": "all sint32 and sint64 values", "why_tests_cant": "Needs all 2^32 / 2^64 values, in particular the extreme negative ones.", "anchors": [{"file": "src/protobuf/qprotobufserializer_p.h", "symbols": ["serializeBasic", "deserializeBasic"]}]}
{"id": "C04", "title": "int32/int64 round trip and accept the sign-extended form", "statement": "Any int32/int64 value, negative ones included, decodes to itself; an int32 field also decodes to the same value when the peer sends the 10-byte sign-extended encoding prescribed by protobuf. The bytes sent for a value are the ones protobuf prescribes (sign extension to 64 bits).", "quantifier": "all int32 and int64 values", "why_tests_cant": "All values of the type; peers written with other libraries are not part of the test-suite.", "anchors": [{"file": "src/protobuf/qprotobufserializer_p.h", "symbols": ["serializeBasic", "deserializeBasic", "deserializeVarintCommon"]}]}
{"id": "C05", "title": "Fixed-width integers, floats and doubles are carried bit for bit", "statement": "A fixed32/fixed64/sfixed32/sfixed64/float/double value is sent as exactly 4 or 8 little-endian bytes and decoding yields the identical bit pattern, NaN payloads and signed zeros included.", "quantifier": "all 2^32 / 2^64 bit patterns and all surrounding bytes", "why_tests_cant": "All bit patterns.", "anchors": [{"file": "src/protobuf/qprotobufserializer_p.h", "symbols": ["serializeBasic", "deserializeBasic"]}]}
{"id": "C06", "title": "Field tags", "statement": "For every field number 1..2^29-1 and wire type 0, 1, 2 or 5 the encoded tag decodes to the same pair; different pairs have different, prefix-free tags; every other tag (field number 0, wire types 3, 4, 6, 7) makes deserialization raise invalid_argument.", "quantifier": "all field numbers, all wire types, all 32-bit tag values", "why_tests_cant": "2^32 tags.", "anchors": [{"file": "src/protobuf/qprotobufserializer_p.h", "symbols": ["encodeHeader", "decodeHeader"]}, {"file": "src/protobuf/qprotobufserializer.cpp", "symbols": ["deserializeProperty"]}]}
{"id": "C07", "title": "Strings and bytes of any content and length round trip", "statement": "Any byte string (and so the UTF-8 form of any text, see C80 for texts themselves), empty, containing NUL bytes or bytes that look like tags, is decoded to exactly the same content and the read position ends exactly after it.", "quantifier": "all byte strings shorter than 2^31, all surrounding bytes", "why_tests_cant": "Unbounded contents.", "anchors": [{"file": "src/protobuf/qprotobufserializer_p.h", "symbols": ["serializeLengthDelimited", "deserializeLengthDelimited", "prependLengthDelimitedSize"]}]}
{"id": "C08", "title": "Packed repeated numeric fields round trip", "statement": "A repeated numeric field with any number of elements of any values, zeros included, decodes to the same list in the same order; an empty list is not sent at all.", "quantifier": "all element types, all lists whose encoding is shorter than 2^31", "why_tests_cant": "Unbounded lists.", "anchors": [{"file": "src/protobuf/qprotobufserializer_p.h", "symbols": ["serializeListType", "deserializeList"]}]}
{"id": "C09", "title": "Repeated strings, bytes and messages keep number and order of elements", "statement": "Every non-null element of a repeated string, bytes or message field is sent as its own record and the decoded list has the same elements in the same order, empty elements included.", "quantifier": "all lists", "why_tests_cant": "Unbounded lists and nesting.", "anchors": [{"file": "src/protobuf/qprotobufserializer_p.h", "symbols": ["serializeListType"]}, {"file": "src/protobuf/qprotobufserializer.cpp", "symbols": ["serializeListType", "deserializeList"]}, {"file": "src/protobuf/qabstractprotobufserializer_p.h", "symbols": ["serializeList", "deserializeList"]}]}
{"id": "C10", "title": "Map fields round trip", "statement": "A map field decodes to a map with the same keys and the same value for every key, for every key and value type, default-valued keys and values included.", "quantifier": "all maps with scalar keys and scalar, enum, string or message values", "why_tests_cant": "Unbounded maps.", "anchors": [{"file": "src/protobuf/qabstractprotobufserializer_p.h", "symbols": ["serializeMap", "deserializeMap"]}, {"file": "src/protobuf/qprotobufserializer.cpp", "symbols": ["serializeMapPair", "deserializeMapPair"]}]}
{"id": "C11", "title": "Enum fields and enum lists round trip", "statement": "Every enum value, negative ones included, and every list of them decodes to itself; the zero value of a singular field is not sent.", "quantifier": "all 32-bit enum values, all lists of them", "why_tests_cant": "All values and lists.", "anchors": [{"file": "src/protobuf/qprotobufserializer.cpp", "symbols": ["serializeEnum", "deserializeEnum", "serializeEnumList", "deserializeEnumList"]}, {"file": "src/protobuf/qabstractprotobufserializer_p.h", "symbols": ["serializeEnum", "deserializeEnum", "deserializeEnumList"]}]}
{"id": "C12", "title": "Whole messages round trip", "statement": "For every message type whose singular message fields do not form a cycle and every value of it, deserializing what serialize produced yields a message that compares equal to the original (fields holding a NaN excepted: there the bit pattern is kept).", "quantifier": "all schemas, all values, every order in which the fields may be emitted", "why_tests_cant": "Schemas, nesting depth and contents are unbounded and the field order depends on a hash table.", "anchors": [{"file": "src/protobuf/qprotobufserializer.cpp", "symbols": ["serializeMessage", "deserializeMessage", "serializeProperty", "deserializeProperty"]}, {"file": "src/protobuf/qabstractprotobufserializer.h", "symbols": ["serialize", "deserialize"]}, {"file": "src/protobuf/qabstractprotobufserializer_p.h", "symbols": ["serializeObject", "deserializeObject"]}]}
{"id": "C13", "title": "Serialized data is well-formed protobuf", "statement": "What serialize produces is a concatenation of records (tag, payload) where each tag carries the number of a declared field and the wire type protobuf prescribes for its type and where each payload is well formed; unset scalar integers, null strings, empty lists and empty maps produce no record.", "quantifier": "all schemas and values", "why_tests_cant": "Unbounded inputs; an independent grammar has to hold for all of them.", "anchors": [{"file": "src/protobuf/qprotobufserializer.cpp", "symbols": ["serializeMessage", "serializeProperty", "serializeObject"]}, {"file": "src/protobuf/qprotobufserializer_p.h", "symbols": ["encodeHeader"]}]}
{"id": "C14", "title": "The order of fields in the input does not matter", "statement": "If two inputs are permutations of the same well-formed records with distinct field numbers, deserialization gives the same message.", "quantifier": "all schemas, all record sequences, all permutations", "why_tests_cant": "Factorially many permutations, unbounded inputs.", "anchors": [{"file": "src/protobuf/qprotobufserializer.cpp", "symbols": ["deserializeMessage", "deserializeProperty"]}]}
{"id": "C15", "title": "Unknown fields are skipped", "statement": "Inserting well-formed records with field numbers unknown to the receiving type, of any wire type and content, at any record boundary of the input does not change the result of deserialization.", "quantifier": "all schemas, all inputs, all unknown records and positions", "why_tests_cant": "Unbounded contents (forward compatibility with schemas that do not exist yet).", "anchors": [{"file": "src/protobuf/qprotobufserializer.cpp", "symbols": ["skipSerializedFieldBytes", "skipVarint", "skipLengthDelimited", "deserializeProperty"]}]}
{"id": "C16", "title": "Repeated occurrences of a field: last one wins, lists append, maps update", "statement": "When well-formed records of the same field occur several times, a singular scalar/enum/string/message field holds the last one, repeated strings, bytes, messages and enums hold all elements in order of appearance and a map holds the last entry of each key. For packed numeric lists protobuf prescribes concatenation.", "quantifier": "all record sequences", "why_tests_cant": "Unbounded sequences.", "anchors": [{"file": "src/protobuf/qprotobufserializer.cpp", "symbols": ["deserializeProperty", "deserializeList"]}, {"file": "src/protobuf/qprotobufserializer_p.h", "symbols": ["deserializeList"]}, {"file": "src/protobuf/qabstractprotobufserializer_p.h", "symbols": ["deserializeList", "deserializeMap", "deserializeEnumList"]}]}
{"id": "C17", "title": "The previous content of the target message does not influence deserialization", "statement": "deserialize replaces the whole content of the target: the result depends on the input bytes only, fields absent from the input get their default value.", "quantifier": "all prior contents, all inputs", "why_tests_cant": "Every pair of prior state and input.", "anchors": [{"file": "src/protobuf/qabstractprotobufserializer.h", "symbols": ["deserialize"]}]}
{"id": "C18", "title": "A failing deserialization leaves exactly the records before the failure", "statement": "If deserialize raises an exception, the target message equals the result of deserializing the records that precede the failing one; nothing of the failing record, and nothing of the old content, is visible.", "quantifier": "all schemas, all inputs that fail after any number of records", "why_tests_cant": "Every failure position in every input.", "anchors": [{"file": "src/protobuf/qabstractprotobufserializer.h", "symbols": ["deserialize"]}, {"file": "src/protobuf/qprotobufserializer.cpp", "symbols": ["deserializeMessage"]}]}
{"id": "C19", "title": "Truncated input is never accepted", "statement": "If an accepted input is cut at a position inside a record, deserialization of the prefix does not complete normally.", "quantifier": "all schemas, all well-formed inputs, all cut positions inside a record", "why_tests_cant": "All inputs and positions.", "anchors": [{"file": "src/protobuf/qprotobufserializer.cpp", "symbols": ["deserializeMessage"]}, {"file": "src/protobuf/qprotobufselfcheckiterator.h", "symbols": ["operator+=", "operator++"]}]}
{"id": "C20", "title": "Deserialization of any bytes terminates", "statement": "deserialize returns or raises an exception for every input.", "quantifier": "all byte strings, all schemas", "why_tests_cant": "Termination for every hostile input.", "anchors": [{"file": "src/protobuf/qprotobufserializer.cpp", "symbols": ["deserializeMessage", "skipLengthDelimited"]}, {"file": "src/protobuf/qprotobufselfcheckiterator.h", "symbols": ["operator+="]}]}
{"id": "C21", "title": "Deserialization of any bytes stays inside the buffer", "statement": "deserialize never reads outside the input buffer and executes no undefined operation, whatever the bytes are.", "quantifier": "all byte strings, all schemas", "why_tests_cant": "Memory safety for every hostile input.", "anchors": [{"file": "src/protobuf/qprotobufserializer_p.h", "symbols": ["deserializeVarintCommon", "deserializeBasic", "deserializeLengthDelimited"]}, {"file": "src/protobuf/qprotobufselfcheckiterator.h", "symbols": ["QProtobufSelfcheckIterator"]}]}
{"id": "C22", "title": "Serialization terminates", "statement": "serialize terminates for every message of every generated type.", "quantifier": "all schemas, all values", "why_tests_cant": "Message types are unbounded; recursive types are legal proto.", "anchors": [{"file": "src/protobuf/qprotobufserializer.cpp", "symbols": ["serializeMessage", "serializeObject"]}, {"file": "src/generator/templates.cpp", "symbols": ["GetterPrivateMessageDefinitionTemplate"]}, {"file": "src/protobuf/qprotobuflazymessagepointer.h", "symbols": ["get"]}]}
{"id": "C23", "title": "Occurrences of an embedded message are merged", "statement": "When the record of a singular message field occurs several times, protobuf prescribes that the occurrences are merged; equivalently deserializing the concatenation of two encodings gives the merge of the two messages.", "quantifier": "all schemas, all pairs of encodings", "why_tests_cant": "All pairs of inputs.", "anchors": [{"file": "src/protobuf/qabstractprotobufserializer_p.h", "symbols": ["deserializeObject"]}, {"file": "src/protobuf/qprotobufserializer.cpp", "symbols": ["deserializeProperty"]}]}
{"id": "C24", "title": "Property setters notify exactly on change", "statement": "After a setter call the getter returns a value equal to the argument; the change signal is emitted exactly once if the argument differs from the old value, and not at all otherwise.", "quantifier": "all property types, all old and new values, all sequences of setter calls", "why_tests_cant": "All value pairs and call sequences.", "anchors": [{"file": "src/generator/templates.cpp", "symbols": ["SetterTemplate", "SetterTemplateDefinitionComplexType", "SetterTemplateDefinitionMessageType"]}]}
{"id": "C25", "title": "Message equality is an equivalence and copies are equal", "statement": "operator== on NaN-free messages is reflexive, symmetric and transitive, ignores whether an unset nested message was already created, != is its negation, and a copy-constructed or assigned message equals its source.", "quantifier": "all schemas, all values", "why_tests_cant": "All pairs and triples of values.", "anchors": [{"file": "src/generator/templates.cpp", "symbols": ["EqualOperatorPropertyTemplate", "EqualOperatorMessagePropertyTemplate", "CopyFieldTemplate", "CopyComplexFieldTemplate"]}, {"file": "src/generator/messagedefinitionprinter.cpp", "symbols": ["printComparisonOperators", "printCopyFunctionality"]}, {"file": "src/protobuf/qtprotobuftypes.h", "symbols": ["repeatedValueCompare"]}]}
{"id": "C26", "title": "Copies are independent", "statement": "Modifying a message through any accessor does not change messages it was copied from or to.", "quantifier": "all schemas, all values, all modification sequences", "why_tests_cant": "All histories of copies and modifications.", "anchors": [{"file": "src/generator/messagedefinitionprinter.cpp", "symbols": ["printCopyFunctionality"]}, {"file": "src/generator/templates.cpp", "symbols": ["CopyFieldTemplate", "GetterContainerExtraTemplate"]}]}
{"id": "C27", "title": "Moving a message", "statement": "After a move construction or assignment the target equals the old value of the source, for every field type.", "quantifier": "all schemas, all values", "why_tests_cant": "All values.", "anchors": [{"file": "src/generator/messagedefinitionprinter.cpp", "symbols": ["printMoveSemantic"]}, {"file": "src/generator/templates.cpp", "symbols": ["MoveFieldTemplate", "MoveComplexFieldTemplate", "MoveComplexFieldConstructorTemplate", "EnumMoveFieldTemplate"]}]}
{"id": "C28", "title": "Field numbers are bound to the right property", "statement": "In the generated class, the property that serialization looks up for a field number is the property declared for that field, whatever mix of field kinds, QML aliases and list properties the message has, and distinct fields never share a property. A property is called by the name of the field in camel case (with _proto behind names that QML reserves), and looking up that name, as QML does, leads to the field.", "quantifier": "all message descriptors", "why_tests_cant": "All combinations and orders of field kinds.", "anchors": [{"file": "src/generator/messagedefinitionprinter.cpp", "symbols": ["printFieldsOrdering"]}, {"file": "src/generator/messagedeclarationprinter.cpp", "symbols": ["printProperties"]}]}
{"id": "C29", "title": "Type registration and lookup are thread safe", "statement": "Any number of threads may register types and (de)serialize concurrently: no lookup overlaps a registration, registrations do not overlap each other, a lookup returns the handler of the last completed registration of that type, and no schedule deadlocks.", "quantifier": "all numbers of threads, all programs of registrations and lookups, all schedules", "why_tests_cant": "All interleavings of unboundedly many threads.", "anchors": [{"file": "src/protobuf/qabstractprotobufserializer.cpp", "symbols": ["HandlersRegistry::registerHandler", "HandlersRegistry::findHandler"]}]}
{"id": "C30", "title": "Type registration functions run exactly once", "statement": "qRegisterProtobufTypes runs every registered function, in order, exactly once, however often and in whatever order it is called.", "quantifier": "all lists of registered functions, all call histories", "why_tests_cant": "All histories.", "anchors": [{"file": "src/protobuf/qtprotobuf.cpp", "symbols": ["qRegisterProtobufTypes", "registerFunctions"]}]}
{"id": "C31", "title": "Serializer lookup in the plugin registry", "statement": "getSerializer(id) returns the built-in implementation registered for id and raises out_of_range for an unknown one; loading further plugins never changes what an already loaded plugin returns; asking for the serializer or data of an unknown plugin is reported, not undefined.", "quantifier": "all histories of plugin loads and lookups", "why_tests_cant": "All histories.", "anchors": [{"file": "src/protobuf/qprotobufserializerregistry.cpp", "symbols": ["getSerializer", "loadPlugin", "pluginVersion", "pluginRating"]}]}
{"id": "C32", "title": "gRPC requests are framed correctly", "statement": "The body sent for a call or stream is a zero flag byte, the payload length as 32-bit big-endian number and the unchanged payload.", "quantifier": "all payloads shorter than 2^31-5 bytes", "why_tests_cant": "Unbounded payloads.", "anchors": [{"file": "src/grpc/qgrpchttp2channel.cpp", "symbols": ["post", "GrpcMessageSizeHeaderSize"]}]}
{"id": "C33", "title": "Server streams deliver exactly the sent messages, however the bytes are chunked", "statement": "When the server sends a sequence of framed messages and the network delivers the bytes in arbitrary chunks, the stream handlers are called once per message, in order, with exactly the message payload.", "quantifier": "all message sequences, all ways to cut the byte stream into chunks", "why_tests_cant": "Exponentially many chunkings of unbounded streams.", "anchors": [{"file": "src/grpc/qgrpchttp2channel.cpp", "symbols": ["stream", "getExpectedDataSize"]}]}
{"id": "C34", "title": "No bytes from the server can hang or crash the stream reader", "statement": "Processing a chunk of a server stream terminates and stays inside the received data whatever the bytes are.", "quantifier": "all chunk sequences", "why_tests_cant": "All hostile inputs.", "anchors": [{"file": "src/grpc/qgrpchttp2channel.cpp", "symbols": ["stream", "getExpectedDataSize"]}]}
{"id": "C35", "title": "Outcome of a unary call over HTTP/2", "statement": "A network error yields a non-Ok status, for every network error code Qt can report; otherwise a non-zero grpc-status is reported as is with empty data; with status Ok the data is the response message. A response without grpc-status is not a success.", "quantifier": "all network error codes, header values and response bodies", "why_tests_cant": "All bodies and codes.", "anchors": [{"file": "src/grpc/qgrpchttp2channel.cpp", "symbols": ["StatusCodeMap", "processReply", "call"]}]}
{"id": "C36", "title": "An asynchronous call ends exactly once", "statement": "For every interleaving of network completion, timeout, server error and user abort, the reply emits at most one terminal signal (finished or error) as long as the user does not abort it again after its end, and after an abort never finished; once the network operation completes or the call is aborted it emits exactly one.", "quantifier": "all event sequences", "why_tests_cant": "All schedules of events.", "anchors": [{"file": "src/grpc/qgrpchttp2channel.cpp", "symbols": ["call"]}, {"file": "src/grpc/qgrpcchannel.cpp", "symbols": ["call"]}, {"file": "src/grpc/qabstractgrpcclient.cpp", "symbols": ["call"]}, {"file": "src/grpc/qgrpccallreply.cpp", "symbols": ["abort"]}]}
{"id": "C37", "title": "Equal stream subscriptions share one stream and all handlers see all messages", "statement": "Requesting a stream with the same method and argument while it is active returns the same stream object and opens no second connection; each received message is passed once to every handler registered so far in registration order.", "quantifier": "all sequences of stream requests, messages, errors and ends", "why_tests_cant": "All histories.", "anchors": [{"file": "src/grpc/qabstractgrpcclient.cpp", "symbols": ["stream"]}, {"file": "src/grpc/qgrpcstream.h", "symbols": ["handler", "operator=="]}, {"file": "src/grpc/qgrpcstream.cpp", "symbols": ["addHandler"]}]}
{"id": "C38", "title": "A stream ended by the user stays ended", "statement": "After abort() (or the finished signal) of a stream no further message of it is delivered and no new connection is opened for it.", "quantifier": "all event sequences including errors, retry timers and held references", "why_tests_cant": "All schedules of timers and events.", "anchors": [{"file": "src/grpc/qabstractgrpcclient.cpp", "symbols": ["stream"]}, {"file": "src/grpc/qgrpcstream.cpp", "symbols": ["abort"]}, {"file": "src/grpc/qgrpchttp2channel.cpp", "symbols": ["stream"]}]}
{"id": "C39", "title": "Attaching a channel ends all active streams", "statement": "attachChannel called in the right thread ends every active stream exactly once, makes the new channel current and leaves no active stream behind; called from another thread it raises and changes nothing.", "quantifier": "all numbers of active streams", "why_tests_cant": "Any number of active streams.", "anchors": [{"file": "src/grpc/qabstractgrpcclient.cpp", "symbols": ["attachChannel"]}]}
{"id": "C40", "title": "QML GrpcStream follows its properties", "statement": "A stream is open exactly when client, method and argument are set and enabled is true; changing client, method or argument while enabled cancels the old stream and opens a new one with the new values.", "quantifier": "all sequences of property changes and stream events", "why_tests_cant": "All histories.", "anchors": [{"file": "src/grpc/quick/qquickgrpcstream.cpp", "symbols": ["updateStream", "stream"]}, {"file": "src/grpc/quick/qquickgrpcstream_p.h", "symbols": ["setClient", "setEnabled", "setMethod", "setArgument"]}]}
{"id": "C41", "title": "Client calls report every failure once and never throw", "statement": "A synchronous call returns Ok only if the channel returned Ok and the response was decoded; in every other case it returns a non-Ok status and the client's error signal was emitted exactly once; a deserialization exception is mapped to InvalidArgument, OutOfRange or Internal and does not escape.", "quantifier": "all channel behaviours, serializer states, response bytes and null targets", "why_tests_cant": "All combinations of failures and all response bytes.", "anchors": [{"file": "src/grpc/qabstractgrpcclient.h", "symbols": ["call", "tryDeserialize", "trySerialize"]}, {"file": "src/grpc/qabstractgrpcclient.cpp", "symbols": ["call"]}]}
{"id": "C42", "title": "Conversions between Qt types and their protobuf messages round trip", "statement": "Sending a QSize, QPoint, QRect, QUrl, QChar, QUuid, QTime, QDate, QDateTime, QPolygon, QColor, QMatrix4x4, QVector2D/3D/4D, QTransform, QQuaternion or QImage through its message gives an equal value.", "quantifier": "all values of the Qt types", "why_tests_cant": "All values.", "anchors": [{"file": "src/qttypes/qtprotobufqttypes.cpp", "symbols": ["convert"]}]}
{"id": "C43", "title": "JSON output is well-formed JSON", "statement": "What the JSON serializer produces is a well-formed JSON text for every message.", "quantifier": "all schemas and values", "why_tests_cant": "All strings (escaping), nesting and empty structures.", "anchors": [{"file": "src/protobuf/qprotobufjsonserializer.cpp", "symbols": ["serializeString", "serializeObject", "serializeListEnd", "serializeMapEnd"]}]}
{"id": "C44", "title": "Generated namespaces are balanced", "statement": "For every package name the generator opens and closes exactly the same namespaces, in the right order, in headers and sources.", "quantifier": "all package names and extra namespaces", "why_tests_cant": "All names.", "anchors": [{"file": "src/generator/descriptorprinterbase.h", "symbols": ["printNamespaces", "encloseNamespaces"]}, {"file": "src/generator/generatorcommon.h", "symbols": ["getNamespaces"]}]}
{"id": "C45", "title": "Generated file names", "statement": "Base name, suffix and directory computations of the generator are mutually consistent: the base name of a proto file contains neither the directory nor the .proto suffix, and in folder mode it lies in the directory given by the package.", "quantifier": "all file and package names", "why_tests_cant": "All strings.", "anchors": [{"file": "src/generator/utils.h", "symbols": ["removeFileSuffix", "extractFileBasename", "split", "replace", "trim"]}, {"file": "src/generator/generatorbase.cpp", "symbols": ["generateBaseName"]}]}
{"id": "C46", "title": "Generator options are parsed independently of their order", "statement": "The options read from the environment are exactly those listed, whatever their order; EXTRA_NAMESPACE=x yields the namespace x.", "quantifier": "all option strings", "why_tests_cant": "All orders and values.", "anchors": [{"file": "src/generator/generatoroptions.cpp", "symbols": ["parseFromEnv"]}]}
{"id": "C47", "title": "Every nested message type gets a class", "statement": "For every message definition the generator emits a class for the message itself and for each message nested in it at any depth, map entries excepted, exactly once and before its first use.", "quantifier": "all message descriptors", "why_tests_cant": "All nestings.", "anchors": [{"file": "src/generator/generatorcommon.cpp", "symbols": ["iterateNestedMessages", "hasNestedMessages"]}, {"file": "src/generator/singlefilegenerator.cpp", "symbols": ["GenerateMessages"]}]}
{"id": "C48", "title": "Nested messages are neither leaked nor freed twice", "statement": "For every sequence of operations on a message field (get, set, replace, external deletion, QML taking ownership, destruction of the parent) every nested object created is destroyed exactly once by exactly one owner.", "quantifier": "all operation sequences", "why_tests_cant": "All histories.", "anchors": [{"file": "src/protobuf/qprotobuflazymessagepointer.h", "symbols": ["QProtobufLazyMessagePointer"]}]}
{"id": "C49", "title": "QML list properties reflect the repeated field", "statement": "append, count, at and clear of the QML list property act on the repeated field itself: after any sequence of operations they agree with the list obtained by applying the same operations to a plain list, and out of range access is not undefined.", "quantifier": "all operation sequences", "why_tests_cant": "All histories.", "anchors": [{"file": "src/protobuf/qqmllistpropertyconstructor.h", "symbols": ["qmllistpropertyAppend", "qmllistpropertyCount", "qmllistpropertyAt", "qmllistpropertyReset"]}]}
{"id": "C50", "title": "Wire types of known fields are checked", "statement": "A record whose wire type does not fit the declared type of its field is not misinterpreted: numeric repeated fields accept packed and unpacked records, any other mismatch is skipped or rejected.", "quantifier": "all schemas, all records", "why_tests_cant": "All records.", "anchors": [{"file": "src/protobuf/qprotobufserializer.cpp", "symbols": ["deserializeProperty"]}, {"file": "src/protobuf/qprotobufserializer_p.h", "symbols": ["deserializeList"]}]}
{"id": "C51", "title": "Map entries with additional or missing parts", "statement": "In a map entry a missing key or value means the default key or value, and unknown fields in the entry are skipped.", "quantifier": "all map types, all entry contents", "why_tests_cant": "All contents.", "anchors": [{"file": "src/protobuf/qprotobufserializer.cpp", "symbols": ["deserializeMapPair"]}, {"file": "src/protobuf/qabstractprotobufserializer_p.h", "symbols": ["deserializeMap"]}]}
{"id": "C52", "title": "Any non-zero varint is true for a bool field", "statement": "A record of a bool field is read as true if its varint is not zero and as false if it is zero.", "quantifier": "all schemas, all bool fields, all 64-bit varints in all their encodings", "why_tests_cant": "The varint ranges over 2^64 values in several encodings each; tests try 0 and 1.", "anchors": ["src/protobuf/qprotobufserializer.cpp: QProtobufSerializerPrivate::QProtobufSerializerPrivate (bool handler)", "src/protobuf/qprotobufserializer_p.h: deserializeBasic"]}
{"id": "C53", "title": "Deserialization leaves a well-typed object", "statement": "Whatever bytes or JSON text are passed to deserialize and however the call ends (normally or with an exception), every property of the resulting object holds a value of its declared type, map keys are distinct, and no element of a repeated message field or map value is a null pointer.", "quantifier": "all schemas, all message types, all byte sequences, all outcomes", "why_tests_cant": "Tests try a few valid and a few malformed inputs; the claim ranges over all byte sequences including truncated and hostile ones.", "anchors": ["src/protobuf/qabstractprotobufserializer.h: deserialize", "src/protobuf/qprotobufserializer.cpp: QProtobufSerializer::deserializeMessage, deserializeProperty", "src/protobuf/qabstractprotobufserializer_p.h: deserializeList, deserializeMap"]}
{"id": "C54", "title": "Unary calls carry messages from end to end", "statement": "A synchronous call over HTTP/2 whose server answers the framed serialized argument with status 0 and the framed serialization of a response message returns Ok, emits no error and leaves the target equal to the response the server sent.", "quantifier": "all schemas, argument objects, response objects and serializations up to 2^31-1 bytes", "why_tests_cant": "All messages of all types.", "anchors": [{"file": "src/grpc/qabstractgrpcclient.h", "symbols": ["call", "tryDeserialize"]}, {"file": "src/grpc/qgrpchttp2channel.cpp", "symbols": ["call", "postStatus", "processReply"]}, {"file": "src/protobuf/qprotobufobject.h", "symbols": ["serialize", "deserialize"]}]}
{"id": "C55", "title": "Active streams are reconnected", "statement": "As long as a stream is active it is either connected or waiting for exactly one retry; a failed connection is reported once by the stream and once by the client, and the retry opens exactly one new connection for it over the current channel. A stream is never left active without connection, retry or signal.", "quantifier": "all histories of requests, messages, failures, ends, aborts, timers and channel changes", "why_tests_cant": "All schedules of failures and timers.", "anchors": [{"file": "src/grpc/qabstractgrpcclient.cpp", "symbols": ["stream"]}, {"file": "src/grpc/qgrpchttp2channel.cpp", "symbols": ["stream"]}, {"file": "src/grpc/qgrpcchannel.cpp", "symbols": ["stream"]}]}
{"id": "C56", "title": "The JSON output denotes the message", "statement": "Read as JSON, the output of the JSON serializer denotes one value: an object with one member for every field, under the field's JSON name, whose value is the value of the field (enums by the name of their enumerator, bytes in base64, lists and maps with all their elements, nested messages as objects), and nothing else.", "quantifier": "all message types, names and enumerators, all messages", "why_tests_cant": "All contents, in particular all strings and enum numberings.", "anchors": [{"file": "src/protobuf/qprotobufjsonserializer.cpp", "symbols": ["serializeObject", "serializeProperty", "serializeValue", "serializeEnum", "serializeList", "serializeMapPair"]}]}
{"id": "C57", "title": "Generated code names the classes that exist", "statement": "Wherever generated code mentions the class of a message, as the type of a field or as parameter or result of a remote procedure, the name it uses is the name under which that class is declared, at any depth of nesting and for every package.", "quantifier": "all packages, nestings and message names", "why_tests_cant": "All names and depths; the test protos use capitalised names only.", "anchors": [{"file": "src/generator/generatorcommon.cpp", "symbols": ["produceMessageTypeMap", "produceMethodMap"]}, {"file": "src/generator/generatorcommon.h", "symbols": ["getNamespaces", "getNestedNamespaces"]}, {"file": "src/generator/messagedeclarationprinter.cpp", "symbols": ["printClassDeclarationPrivate"]}]}
{"id": "C58", "title": "Generated includes name generated files", "statement": "For every file and service, the headers that generated code includes for imported files, for its own messages and for its own services are files that the generator writes.", "quantifier": "all file names, import paths, packages, services and generator options", "why_tests_cant": "All combinations of paths and packages.", "anchors": [{"file": "src/generator/singlefilegenerator.cpp", "symbols": ["GenerateMessages", "GenerateServices"]}, {"file": "src/generator/multifilegenerator.cpp", "symbols": ["GenerateMessages", "GenerateServices"]}, {"file": "src/generator/generatorbase.cpp", "symbols": ["generateBaseName"]}, {"file": "src/generator/utils.h", "symbols": ["removeFileSuffix", "extractFileBasename"]}]}
{"id": "C59", "title": "Changes through getters show in the outer message", "statement": "A nested message obtained from the getter of a message object, to any depth, is part of that object: setting one of its fields changes exactly that field in the value of the outer object, also when the nested message had not been set before. An element of a repeated message field or a value of a map obtained through a getter and changed is found changed when it is read again the same way.", "quantifier": "all schemas, objects, chains of getters of any length, fields and new values", "why_tests_cant": "Objects, depths and types are unbounded; aliasing between the paths depends on all of them.", "anchors": [{"file": "src/generator/templates.cpp", "symbols": ["GetterMessageDefinitionTemplate", "GetterContainerExtraTemplate"]}, {"file": "src/protobuf/qprotobuflazymessagepointer.h", "symbols": ["QProtobufLazyMessagePointer::get", "QProtobufLazyMessagePointer::operator*"]}]}
{"id": "C60", "title": "A JSON text for a message is read as that message", "statement": "Deserializing a JSON text that stands for a message by the JSON mapping of protobuf gives that message, whatever the order of members and map entries, the white space, members left out (they keep the value of the object), null (default value) and quoted numbers. In particular the output of the JSON serializer is read back as the message that was serialized, into any object. The result is unique.", "quantifier": "all schemas, messages, texts for them, objects read into, and all implementations of the splitting of JSON texts", "why_tests_cant": "Texts, nesting and schemas are unbounded and a message has infinitely many texts.", "anchors": [{"file": "src/protobuf/qprotobufjsonserializer.cpp", "symbols": ["QProtobufJsonSerializerPrivate::deserializeObject", "QProtobufJsonSerializerPrivate::deserializeValue", "QProtobufJsonSerializer::deserializeMapPair", "QProtobufJsonSerializer::deserializeListObject", "QProtobufJsonSerializer::deserializeEnum"]}]}
{"id": "C61", "title": "JSON members that do not belong to the message have no effect", "statement": "Deserializing a JSON text leaves all fields as they are that are not named by its members; members with unknown names, and members whose value is of a kind that no value of the field has, change nothing.", "quantifier": "all schemas, objects, unknown names, values of any nesting and all implementations of the splitting of JSON texts", "why_tests_cant": "Unknown members may have any content.", "anchors": [{"file": "src/protobuf/qprotobufjsonserializer.cpp", "symbols": ["QProtobufJsonSerializerPrivate::deserializeObject", "QProtobufJsonSerializerPrivate::deserializeValue"]}]}
{"id": "C62", "title": "Every field of a generated class has a handler", "statement": "After the registration functions of an application ran, in any order, the serializers find for every field of every generated class the handler of its type (for a map those of the map, its keys and its values), so that no field makes serialization or deserialization fail for want of one.", "quantifier": "all files, messages at any nesting, fields of all types, and all orders of registration", "why_tests_cant": "Schemas are unbounded, and the order in which libraries register is up to the linker.", "anchors": [{"file": "src/generator/messagedefinitionprinter.cpp", "symbols": ["MessageDefinitionPrinter::printRegisterBody"]}, {"file": "src/protobuf/qtprotobuftypes.h", "symbols": ["qRegisterProtobufType", "qRegisterProtobufMapType", "qRegisterProtobufEnumType"]}, {"file": "src/protobuf/qabstractprotobufserializer.cpp", "symbols": ["QtProtobufPrivate::findHandler"]}]}
{"id": "C63", "title": "Enumerations are declared and named rightly", "statement": "The C++ enumeration for an enum has its values with their numbers, each name once; the constants for field numbers have the number of their field. Where a class uses an enumeration, the printed name is that of its declaration, as C++ looks it up from that class; and the initial value is one of its enumerators.", "quantifier": "all enumerations, packages, nesting of messages, classes that use them, and extra namespaces", "why_tests_cant": "Names and nesting are unbounded.", "anchors": [{"file": "src/generator/generatorcommon.cpp", "symbols": ["common::enumVisibility", "common::produceEnumTypeMap", "common::getScopeNamespacesString"]}, {"file": "src/generator/enumdeclarationprinter.cpp", "symbols": ["EnumDeclarationPrinter"]}, {"file": "src/generator/messagedeclarationprinter.cpp", "symbols": ["MessageDeclarationPrinter::printFieldEnum"]}]}
{"id": "C64", "title": "Constructors initialize all members", "statement": "For each number of leading fields there is a constructor that takes their values and sets all other fields to the defaults of protobuf; no member is left uninitialized, messages are copied. For arguments of those types C++ finds exactly one constructor.", "quantifier": "all messages and numbers of arguments", "why_tests_cant": "Messages have any number of fields of any type.", "anchors": [{"file": "src/generator/messagedefinitionprinter.cpp", "symbols": ["MessageDefinitionPrinter::printConstructors", "MessageDefinitionPrinter::printInitializationList"]}, {"file": "src/generator/messagedeclarationprinter.cpp", "symbols": ["MessageDeclarationPrinter::printConstructors", "MessageDeclarationPrinter::printCopyFunctionality"]}]}
{"id": "C65", "title": "Generated clients call the procedures of their service", "statement": "Each method of a generated client makes a request at the path /package.Service/Method of a procedure of its service, sends the message given as first argument, and opens a stream if and only if the procedure says so; each procedure can be called in all ways; no two methods have the same signature.", "quantifier": "all services, with and without QML", "why_tests_cant": "Services have any number of procedures with any names.", "anchors": [{"file": "src/generator/clientdefinitionprinter.cpp", "symbols": ["ClientDefinitionPrinter::printMethods"]}, {"file": "src/generator/clientdeclarationprinter.cpp", "symbols": ["ClientDeclarationPrinter"]}, {"file": "src/generator/generatorcommon.cpp", "symbols": ["common::produceMethodMap"]}, {"file": "src/grpc/qgrpchttp2channel.cpp", "symbols": ["QGrpcHttp2ChannelPrivate::post"]}, {"file": "src/grpc/qgrpcchannel.cpp", "symbols": ["QGrpcChannelPrivate::call", "QGrpcChannelPrivate::stream"]}]}
{"id": "C66", "title": "Headers include what their classes need", "statement": "In the mode with several files, the header for a message includes the headers of all types that its fields, and those of the classes inside of it, use.", "quantifier": "all messages, types of fields and orders of fields", "why_tests_cant": "Messages have any number of fields in any order.", "anchors": [{"file": "src/generator/generatorbase.cpp", "symbols": ["GeneratorBase::printInclude"]}, {"file": "src/generator/multifilegenerator.cpp", "symbols": ["MultiFileGenerator::Generate", "MultiFileGenerator::findNestedDependency"]}]}
{"id": "C67", "title": "Timestamp converts times rightly", "statement": "The Timestamp made of a QDateTime holds the seconds and nanoseconds that google/protobuf/timestamp.proto prescribes for that time, converting it back gives the time again, and every Timestamp converts to the time it stands for.", "quantifier": "all times", "why_tests_cant": "There are infinitely many times.", "anchors": [{"file": "src/generator/messagedefinitionprinter.cpp", "symbols": ["MessageDefinitionPrinter::printConstructors"]}]}
{"id": "C68", "title": "Callbacks of asynchronous calls", "statement": "A call started with a callback tells its end exactly once: callback gets the response if the call succeeds and the response can be decoded, errorCallback gets the status otherwise, and nothing is told before. A call that cannot be started is reported too.", "quantifier": "all histories of calls, network events, aborts, channels and destruction of objects; all responses", "why_tests_cant": "Network events, aborts and the destruction of objects interleave in arbitrarily many ways, and responses are arbitrary bytes.", "anchors": [{"file": "src/generator/templates.cpp", "symbols": ["Templates::ClientMethodDefinitionAsync2Template", "Templates::ClientMethodDefinitionQmlTemplate", "Templates::ClientMethodDefinitionQml2Template"]}, {"file": "src/grpc/qabstractgrpcclient.cpp", "symbols": ["QAbstractGrpcClient::call"]}, {"file": "src/grpc/qgrpchttp2channel.cpp", "symbols": ["QGrpcHttp2Channel::call"]}, {"file": "src/grpc/qgrpcasyncoperationbase_p.h", "symbols": ["QGrpcAsyncOperationBase::read"]}]}
{"id": "C69", "title": "Replies exist as long as they are needed", "statement": "The reply of an asynchronous call is not destroyed while its call is running or a handle to it is held, is destroyed once neither is the case, and a handle can be used as long as it is held.", "quantifier": "all histories of calls, network events, copies and drops of handles, and destruction of objects", "why_tests_cant": "The order of network events, drops of handles and destruction of objects is arbitrary.", "anchors": [{"file": "src/grpc/qabstractgrpcclient.cpp", "symbols": ["QAbstractGrpcClient::call"]}, {"file": "src/grpc/qgrpccallreply.h", "symbols": ["QGrpcCallReply"]}, {"file": "src/generator/templates.cpp", "symbols": ["Templates::ClientMethodDefinitionAsync2Template", "Templates::ClientMethodDefinitionQmlTemplate"]}]}
{"id": "C70", "title": "Running calls survive a change of the channel", "statement": "A running call ends with the result of its network operation, or with an error, also if the client is attached to another channel meanwhile.", "quantifier": "all histories of calls, network events and changes of the channel", "why_tests_cant": "The channel may change at any point of any number of calls.", "anchors": [{"file": "src/grpc/qabstractgrpcclient.cpp", "symbols": ["QAbstractGrpcClient::attachChannel", "QAbstractGrpcClient::call"]}, {"file": "src/grpc/qgrpchttp2channel.cpp", "symbols": ["QGrpcHttp2Channel::call", "QGrpcHttp2ChannelPrivate"]}]}
{"id": "C71", "title": "Requests carry address, credentials and encryption as asked", "statement": "Every request of an HTTP/2 channel goes to the server of the channel's URL and to the path of the procedure, is a gRPC request that allows only what the client understands, carries every call credential of the channel as a header and nothing else, and is encrypted with the SSL configuration given for the channel.", "quantifier": "all URLs, credentials, services, methods and messages", "why_tests_cant": "Credentials have any names and values, and tables of credentials have no fixed order.", "anchors": [{"file": "src/grpc/qgrpchttp2channel.cpp", "symbols": ["QGrpcHttp2ChannelPrivate::post", "QGrpcHttp2ChannelPrivate::QGrpcHttp2ChannelPrivate"]}, {"file": "src/grpc/qgrpccredentials.h", "symbols": ["QGrpcCredentials", "operator |"]}, {"file": "src/grpc/qgrpcuserpasswordcredentials.h", "symbols": ["QGrpcUserPasswordCredentials"]}, {"file": "src/grpc/qgrpcsslcredentials.h", "symbols": ["QGrpcSslCredentials"]}, {"file": "src/grpc/qgrpcinsecurecredentials.h", "symbols": ["QGrpcInsecureCallCredentials", "QGrpcInsecureChannelCredentials"]}]}
{"id": "C72", "title": "The build expects the files that the generator writes", "statement": "For every set of schemas and every choice of options, the files that qtprotobuf_generate declares as output of the generator and compiles are those that the generator writes for these schemas and options, up to those that are excluded explicitly.", "quantifier": "all schemas that protoc accepts, in whatever layout, and all options", "why_tests_cant": "The build scans the text of schemas, which can be laid out in infinitely many ways, while the generator works on parsed descriptors.", "anchors": [{"file": "cmake/QtPreParseProtoFile.cmake", "symbols": ["proto_messages", "output_files"]}, {"file": "cmake/QtProtobufGen.cmake", "symbols": ["qtprotobuf_generate", "generated_files", "generation_options_string"]}, {"file": "src/generator/singlefilegenerator.cpp", "symbols": ["SingleFileGenerator::GenerateMessages", "SingleFileGenerator::GenerateServices"]}, {"file": "src/generator/multifilegenerator.cpp", "symbols": ["MultiFileGenerator::Generate", "MultiFileGenerator::GenerateAll"]}]}
{"id": "C73", "title": "The threads of the gRPC library channel lose, duplicate and reorder nothing", "statement": "Over the channel that is based on the gRPC library, the handlers of a stream get the messages that were received for it, each once, unchanged and in order; an error is reported at most once, after all messages and as the last thing; and when the server has ended the call or stream and the user has neither aborted nor destroyed it, everything that was received has been reported as soon as the event loop has no more events.", "quantifier": "all interleavings of the threads of any number of calls and streams, of the event loop and of what the user does", "why_tests_cant": "Each call and stream has a thread of its own; the interleavings are without number and depend on the machine.", "anchors": [{"file": "src/grpc/qgrpcchannel.cpp", "symbols": ["QGrpcChannelStream", "QGrpcChannelCall", "QGrpcChannelPrivate::call", "QGrpcChannelPrivate::stream"]}, {"file": "src/grpc/qgrpcchannel_p.h", "symbols": ["QGrpcChannelStream", "QGrpcChannelCall"]}]}
{"id": "C74", "title": "Replies, streams, clients and channels can be destroyed at any time", "statement": "Over the channel that is based on the gRPC library, replies, streams, their client and the channel can be destroyed at any time, also while threads run: no thread uses an object after its destruction, the destroying thread is not blocked for ever, and afterwards no thread of the destroyed object is left.", "quantifier": "all interleavings of the threads of any number of calls and streams, of the event loop and of what the user does", "why_tests_cant": "Use of destroyed objects depends on the point of time at which another thread is stopped.", "anchors": [{"file": "src/grpc/qgrpcchannel.cpp", "symbols": ["~QGrpcChannelCall", "~QGrpcChannelStream", "QGrpcChannelCall", "QGrpcChannelPrivate::call", "QGrpcChannelPrivate::stream"]}, {"file": "src/grpc/qgrpcchannel_p.h", "symbols": ["QGrpcChannelPrivate"]}]}
{"id": "C75", "title": "Generated classes are well-formed", "statement": "The class that is generated for a message is one that a C++ compiler and linker accept: its members do not clash with each other or with the name of the class, their names are identifiers and no keywords, the parameters of each constructor have different names, each member that is declared is defined once, each Q_PROPERTY names functions and a signal of the class that have the right type and give access to the variable of its field, and no meta type is declared twice.", "quantifier": "all messages, with any number of fields, enumerations and nested messages of any names, and all options of the generator", "why_tests_cant": "Clashes depend on combinations of names, and tests compile a handful of schemas.", "anchors": [{"file": "src/generator/messagedeclarationprinter.cpp", "symbols": ["printClassBody", "printProperties", "printGetters", "printSetters", "printSignals", "printPrivateMethods", "printClassMembers", "printMetaTypesDeclaration", "printQEnums", "printNested", "printMaps"]}, {"file": "src/generator/messagedefinitionprinter.cpp", "symbols": ["printClassDefinitionPrivate", "printGetters", "printConstructors"]}, {"file": "src/generator/templates.cpp", "symbols": ["GetterTemplate", "SetterTemplate", "PropertyTemplate", "DeclareMetaTypeTemplate"]}]}
{"id": "C76", "title": "Generated comparison, copies and moves treat every field", "statement": "In the class that is generated for a message, operator== tells whether the objects hold the same values in all fields; copy constructor, move constructor and both assignments give the object the value of the other one in every field; an assignment emits the change signal of each field whose value changes and of no other, once; a moved-from object can still be used; an object that is assigned or moved to itself keeps its value.", "quantifier": "all messages with any number of fields of any shape (numbers, texts, enumerations, messages, lists and maps of them), all values of both objects, whatever the memory of a new object holds before", "why_tests_cant": "The statements are printed per field from templates chosen by the kind of the field; a template that reads or writes another variable, calls another setter or misses a kind shows only for some messages and values.", "anchors": [{"file": "src/generator/messagedefinitionprinter.cpp", "symbols": ["printCopyFunctionality", "printMoveSemantic", "printComparisonOperators"]}, {"file": "src/generator/templates.cpp", "symbols": ["CopyFieldTemplate", "CopyComplexFieldTemplate", "AssignComplexFieldTemplate", "MoveFieldTemplate", "MoveComplexFieldTemplate", "MoveComplexFieldConstructorTemplate", "EnumMoveFieldTemplate", "EqualOperatorPropertyTemplate", "EqualOperatorMessagePropertyTemplate", "SetterTemplate"]}]}
{"id": "C77", "title": "Blocking calls from any thread return their own result", "statement": "A blocking call, from whatever thread and from whatever code (also from code that runs while another call waits), returns once, and what it returns is what the channel makes of the reply to this very call; a call of a client without channel returns Unknown. The client emits its error signal once for each call that fails and for nothing else. Calls that other threads make are executed in the order in which they were made, and a thread does not go on before its call has returned. No object is used after it was destroyed.", "quantifier": "all assignments of clients to threads, all interleavings of calls, nested calls, replies, timeouts, attached channels and destroyed clients", "why_tests_cant": "Depends on the interleaving of threads, event loops, timers and replies; each of them is unbounded.", "anchors": [{"file": "src/grpc/qabstractgrpcclient.cpp", "symbols": ["QAbstractGrpcClient::call", "QAbstractGrpcClient::attachChannel"]}, {"file": "src/grpc/qgrpchttp2channel.cpp", "symbols": ["QGrpcHttp2Channel::call", "QGrpcHttp2ChannelPrivate::post", "abortNetworkReply"]}, {"file": "src/grpc/qgrpcchannel.cpp", "symbols": ["QGrpcChannelPrivate::call"]}]}
{"id": "C78", "title": "Blocking calls do not hang", "statement": "Every blocking call returns after finitely many steps once its reply has come or its timeout has passed, whatever other calls are waiting.", "quantifier": "all assignments of clients to threads, all reachable states and all continuations", "why_tests_cant": "A call that never returns is a property of infinite continuations, and deadlocks depend on the interleaving.", "anchors": [{"file": "src/grpc/qabstractgrpcclient.cpp", "symbols": ["QAbstractGrpcClient::call", "QAbstractGrpcClient::attachChannel"]}, {"file": "src/grpc/qgrpchttp2channel.cpp", "symbols": ["QGrpcHttp2Channel::call", "QGrpcHttp2ChannelPrivate::post"]}]}
{"id": "C79", "title": "Replies and streams can be used from handlers, slots and other threads", "statement": "A call of read gives the message that arrived last, never a mixture, whichever thread calls it; a handler or slot that is called for a message reads this message; each handler is called once per message in the order in which handlers were added; slots of other threads are called for every message in order; and no use by handlers, slots and other threads makes a thread wait forever.", "quantifier": "all interleavings of messages, reads, aborts, subscriptions, handlers and slots in any number of threads, for all message contents", "why_tests_cant": "The interleavings of threads and the nesting of handlers are unbounded, and deadlocks are properties of all continuations.", "anchors": [{"file": "src/grpc/qgrpcasyncoperationbase_p.h", "symbols": ["QGrpcAsyncOperationBase::read", "QGrpcAsyncOperationBase::setData"]}, {"file": "src/grpc/qgrpcstream.h", "symbols": ["QGrpcStream::handler"]}, {"file": "src/grpc/qgrpcstream.cpp", "symbols": ["QGrpcStream::addHandler", "QGrpcStream::abort"]}, {"file": "src/grpc/qgrpccallreply.cpp", "symbols": ["QGrpcCallReply::abort"]}, {"file": "src/grpc/qabstractgrpcclient.h", "symbols": ["QAbstractGrpcClient::tryDeserialize"]}]}
{"id": "C80", "title": "Texts survive serialization", "statement": "The text in a string field, list of strings, or key or value of a map is written as its UTF-8, always valid UTF-8, and read back as the same text; texts written by other implementations are read as they are, and whatever bytes arrive as string, the application gets a well-formed text.", "quantifier": "all texts of Unicode characters, all contents of QStrings, all byte strings, all message types and objects", "why_tests_cant": "There are 1.1 million characters and unboundedly many texts; the exceptions are particular characters at particular places.", "anchors": [{"file": "src/protobuf/qprotobufserializer_p.h", "symbols": ["serializeBasic", "serializeListType", "deserializeBasic"]}, {"file": "src/protobuf/qprotobufserializer.cpp", "symbols": ["deserializeList"]}]}
{"id": "C81", "title": "Messages of a status arrive as the server sent them", "statement": "If a call or stream fails with a status, the message of the status that the client reports is the text that the server gave.", "quantifier": "all texts, both channels", "why_tests_cant": "Test servers send ASCII messages; the property ranges over all texts.", "anchors": [{"file": "src/grpc/qgrpchttp2channel.cpp", "symbols": ["QGrpcHttp2Channel::call", "QGrpcHttp2Channel::subscribe"]}, {"file": "src/grpc/qgrpcchannel.cpp", "symbols": ["QGrpcChannelCall", "QGrpcChannelSubscription"]}]}
{"id": "C82", "title": "Comments of the proto file stay comments", "statement": "With the option COMMENTS, the comment before a message or field in the proto file appears in the generated header as a comment with the same lines, and the generated code is otherwise the same as without it.", "quantifier": "all comments, indentations, and texts before and after", "why_tests_cant": "The tests' schemas have a few harmless comments; the property ranges over all texts people write in comments, including slashes, asterisks and dollar signs.", "anchors": [{"file": "src/generator/baseprinter.h", "symbols": ["BasePrinter::printComments"]}, {"file": "src/generator/utils.h", "symbols": ["utils::trim", "utils::replace"]}]}
{"id": "C83", "title": "Numbers keep their value on the way through properties, QVariant and QML", "statement": "A number written to an integer field of a message through setProperty, a QVariant or QML is stored with its value, or the write is refused; read through them, as an integer, a floating point number, a text or a JavaScript number, the field gives the value it holds. Fields whose values QML cannot represent are not shown to it.", "quantifier": "all integer types of fields, all values, all floating point numbers including infinities and NaN, and all integer types, texts and numbers they are converted from and to", "why_tests_cant": "Tests write a few small numbers from C++ and QML; whether wrapping, rounding and undefined conversions can occur depends on all pairs of types and values.", "anchors": [{"file": "src/protobuf/qtprotobuftypes.h", "symbols": ["transparent::toType", "transparent::fromType", "transparent::toString"]}, {"file": "src/protobuf/qtprotobuf.cpp", "symbols": ["registerBasicConverters"]}, {"file": "src/protobuf/quick/qtprotobufquickplugin.cpp", "symbols": ["coverter"]}, {"file": "src/generator/generatorcommon.cpp", "symbols": ["common::producePropertyMap", "common::hasQmlAlias"]}]}
{"id": "C84", "title": "Programs with different versions of a schema understand each other", "statement": "A message that is serialized by a program generated from one version of a schema is deserialized by a program generated from another version without an error, and its fields have the values the protobuf documentation gives: fields are matched by number, new fields have their default value, removed fields are ignored, integers of compatible types are cast, strings, bytes and messages may replace each other as documented, and single strings and messages may become lists and the other way round.", "quantifier": "all pairs of schemas whose fields with the same number have compatible types, with any fields added, removed, renamed and reordered; all messages, at any depth of nesting, in lists and in maps", "why_tests_cant": "Tests use the same schema on both sides; compatibility must hold for every pair of versions and every message.", "anchors": [{"file": "src/protobuf/qprotobufserializer.cpp", "symbols": ["QProtobufSerializer::serializeMessage", "QProtobufSerializer::deserializeMessage", "QProtobufSerializerPrivate::skipSerializedFieldBytes"]}, {"file": "src/protobuf/qprotobufserializer_p.h", "symbols": ["QProtobufSerializerPrivate::serializeBasic", "QProtobufSerializerPrivate::deserializeBasic", "QProtobufSerializerPrivate::deserializeVarintCommon"]}]}
{"id": "C85", "title": "Reading a message needs a bounded stack", "statement": "The number of nested calls that deserialization needs is bounded by the message types, whatever the bytes are, so no input from another program can exhaust the stack of the reading thread.", "quantifier": "all schemas, message types, inputs and sizes of the stack", "why_tests_cant": "A test shows that one input of one depth is read; the bound must hold for every input, and its absence shows only with inputs made for the stack size of the thread.", "anchors": [{"file": "src/protobuf/qprotobufserializer.cpp", "symbols": ["QProtobufSerializer::deserializeMessage", "QProtobufSerializer::deserializeObject", "QProtobufSerializer::deserializeListObject", "QProtobufSerializer::deserializeMapPair", "QProtobufSerializerPrivate::deserializeProperty"]}]}
{"id": "C86", "title": "Generated types can be used in QML", "statement": "With the option QML, every message that has a class and every enumeration of the top level can be used in QML documents: after the registration functions ran, in any order, the module made of the package and the outer messages and the name of the type give that type and no other, and the values of its enumerations have their numbers.", "quantifier": "all programs of generated files, options and orders of registration", "why_tests_cant": "A test imports a few types of one schema; whether some other type or package takes the name, or cannot be written in QML, depends on the whole program.", "anchors": [{"file": "src/generator/messagedefinitionprinter.cpp", "symbols": ["MessageDefinitionPrinter::printRegisterBody"]}, {"file": "src/generator/enumdefinitionprinter.cpp", "symbols": ["EnumDefinitionPrinter::printRegisterBody"]}, {"file": "src/generator/generatorcommon.cpp", "symbols": ["common::produceMessageTypeMap", "common::produceEnumTypeMap", "common::getNamespacesString"]}, {"file": "src/generator/templates.cpp", "symbols": ["Templates::QmlRegisterTypeTemplate", "Templates::QmlRegisterEnumTypeTemplate"]}]}
{"id": "C87", "title": "GrpcStream of QML opens the stream of the named procedure", "statement": "A GrpcStream element with a generated client as target, the name of a streaming procedure as method and an object of the request class as argument opens the stream of that procedure; another argument is refused with InvalidArgument, another method with Unimplemented, and no stream of another procedure is ever opened.", "quantifier": "all services, programs of message types, generator options, method names and argument classes", "why_tests_cant": "A test uses one client; which method is found and which meta type its parameters have depends on the names of all procedures and all registered types of the program.", "anchors": [{"file": "src/grpc/quick/qquickgrpcstream.cpp", "symbols": ["QQuickGrpcStream::stream"]}, {"file": "src/generator/templates.cpp", "symbols": ["Templates::ClientMethodServerStreamQmlDeclarationTemplate", "Templates::ClientMethodServerStreamQmlDefinitionTemplate", "Templates::ManualRegistrationComplexTypeDefinition"]}, {"file": "src/generator/clientdeclarationprinter.cpp", "symbols": ["ClientDeclarationPrinter::printClientMethodsDeclaration"]}]}
{"id": "C88", "title": "Generated clients are well-formed classes", "statement": "For every service the generated client is a class that compiles: each method the header declares is defined once with the same signature, overloads differ, names are no keywords and do not hide the functions the methods call, only the constructor is named like the class, and the headers of the messages are included; the methods are public and those for JavaScript can be invoked from it.", "quantifier": "all services, packages and generator options", "why_tests_cant": "A test compiles the client of one service; the names of another one can clash with each other, with C++ or with the base class.", "anchors": [{"file": "src/generator/clientdeclarationprinter.cpp", "symbols": ["ClientDeclarationPrinter::run", "ClientDeclarationPrinter::printClientMethodsDeclaration"]}, {"file": "src/generator/clientdefinitionprinter.cpp", "symbols": ["ClientDefinitionPrinter::printMethods", "ClientDefinitionPrinter::printConstructor"]}, {"file": "src/generator/servicedeclarationprinterbase.cpp", "symbols": ["ServiceDeclarationPrinterBase::printIncludes"]}]}
{"id": "C89", "title": "GrpcStream has a return value while its stream is open and announces each message", "statement": "returnValue of a GrpcStream element is an object exactly while its stream is open, every change of it is signalled, and each message that comes for the stream is announced once, with the object in returnValue.", "quantifier": "all histories of property changes, stream events and other uses of the clients", "why_tests_cant": "A test follows one history; the value and the signals must be right after all of them.", "anchors": [{"file": "src/grpc/quick/qquickgrpcstream.cpp", "symbols": ["QQuickGrpcStream::updateStream", "QQuickGrpcStream::stream"]}, {"file": "src/grpc/quick/qquickgrpcstream_p.h", "symbols": ["QQuickGrpcStream::returnValue"]}]}
{"id": "C90", "title": "QGrpcStatus is a value", "statement": "A status that is constructed, copied, moved, assigned, compared and destroyed in any order gives the code and message of the value it holds; copies are independent, a status that was moved from can be assigned to and destroyed, and two statuses are equal when code and message are.", "quantifier": "all programs of these operations over any number of statuses", "why_tests_cant": "A test runs a few sequences of operations; independence of copies and safety after a move have to hold in all of them.", "anchors": [{"file": "src/grpc/qgrpcstatus.cpp", "symbols": ["QGrpcStatus::QGrpcStatus", "QGrpcStatus::operator =", "QGrpcStatus::operator ==", "QGrpcStatus::code", "QGrpcStatus::message"]}, {"file": "src/grpc/qgrpcstatus.h", "symbols": ["QGrpcStatus"]}]}
{"id": "C91", "title": "The binary and the JSON format agree", "statement": "A message that is handed from program to program, each of which reads it in one of the formats and sends it on in any of them, arrives with the values it was sent with; and whoever receives a message in the binary format writes the same JSON text as its sender.", "quantifier": "all schemas, messages, and chains of any length of serializations and deserializations in the two formats", "why_tests_cant": "Tests check a round trip in one format for a few messages; the chain mixes two formats, and its length, the messages and the schemas are unbounded.", "anchors": [{"file": "src/protobuf/qprotobufjsonserializer.cpp", "symbols": ["QProtobufJsonSerializer::serializeMessage", "QProtobufJsonSerializer::deserializeMessage"]}, {"file": "src/protobuf/qprotobufserializer.cpp", "symbols": ["QProtobufSerializer::serializeMessage", "QProtobufSerializer::deserializeMessage"]}]}
{"id": "C92", "title": "Programs built from the same .proto files understand each other", "statement": "Whatever options the generator ran with, in whatever order generated types were registered and field tables are traversed, a program with generated classes finds for each field number the field, the property and the handler that the .proto file declares; a message that one program serializes is deserialized by every other program from the same files into exactly the values that were sent, and by programs from other versions of the files into the same values for the fields they have in common.", "quantifier": "all .proto files, generator options, orders of registration, orders of hash tables, messages, and pairs of programs", "why_tests_cant": "Tests build one program with one set of options and run one order of registrations and one hash table; the property is about every pair of programs.", "anchors": [{"file": "src/generator/messagedefinitionprinter.cpp", "symbols": ["MessageDefinitionPrinter::printFieldsOrdering", "MessageDefinitionPrinter::printRegisterBody"]}, {"file": "src/generator/messagedeclarationprinter.cpp", "symbols": ["MessageDeclarationPrinter::printProperties"]}, {"file": "src/protobuf/qprotobufserializer.cpp", "symbols": ["QProtobufSerializerPrivate::serializeProperty", "QProtobufSerializerPrivate::deserializeProperty", "QProtobufSerializer::serializeMessage"]}]}
{"id": "C93", "title": "Programs built from the same .proto files understand each other's JSON texts", "statement": "With the JSON serializer, whatever options the generator ran with, in whatever order generated types were registered and field tables are traversed, a generated program uses the JSON names, types and enumerator names that the .proto files declare; the text that one program writes for a message is read by every other program from the same files, into any object, as the same message. Fields are also found by their names in the .proto file.", "quantifier": "all .proto files, JSON names, enumerations, generator options, orders of registration, orders of hash tables, messages, target objects and pairs of programs", "why_tests_cant": "Tests build one program with one set of options, with harmless names, and run one order of registrations and one hash table; the property is about every set of names and every pair of programs.", "anchors": [{"file": "src/generator/messagedefinitionprinter.cpp", "symbols": ["MessageDefinitionPrinter::printFieldsOrdering"]}, {"file": "src/generator/enumdeclarationprinter.cpp", "symbols": ["EnumDeclarationPrinter::printEnum"]}, {"file": "src/protobuf/qprotobufjsonserializer.cpp", "symbols": ["QProtobufJsonSerializerPrivate::serializeProperty", "QProtobufJsonSerializerPrivate::deserializeObject", "QProtobufJsonSerializerPrivate::serializeValue", "QProtobufJsonSerializerPrivate::deserializeValue"]}, {"file": "src/protobuf/qabstractprotobufserializer_p.h", "symbols": ["serializeEnum", "deserializeEnum"]}]}
{"id": "C94", "title": "Programs with different versions of a schema understand each other's JSON texts", "statement": "A JSON text that a program writes for a message is read by a program with another version of the message type as the same message, as far as it knows it: fields are matched by their JSON names, whatever their numbers, enumerators by theirs; integers keep their value in every integer type that has it; fields that the writer does not know keep the values they have in the target object (default values in nested messages), members that the reader does not know are ignored; at any depth of nesting, in lists and in maps.", "quantifier": "all pairs of schemas with names, all messages, target objects and generated programs", "why_tests_cant": "Tests use one version of each message; the property is about every pair of versions and every message.", "anchors": [{"file": "src/protobuf/qprotobufjsonserializer.cpp", "symbols": ["QProtobufJsonSerializerPrivate::deserializeObject", "QProtobufJsonSerializerPrivate::serializeObject", "QProtobufJsonSerializerPrivate::deserializeValue"]}, {"file": "src/generator/messagedefinitionprinter.cpp", "symbols": ["MessageDefinitionPrinter::printFieldsOrdering"]}]}
{"id": "C95", "title": "A method of a generated client gives back what the procedure on the server answers", "statement": "A method of a generated client reaches the procedure of its name on the server, which gets the message that the caller passed. For a call, the target (or what read() of the reply returns) is the server's answer, the status is Ok, and no error is emitted; for a stream, the target takes the values of all messages that the server sends, in order. If the network fails or the server reports an error, the call returns this error, the client emits it once, and the target keeps its value.", "quantifier": "all .proto files, services, methods, messages, channels and servers written with a program from the same files", "why_tests_cant": "Tests run a few methods with a few messages against one server; the property ranges over every schema, service, message and way of cutting the stream of bytes, through all layers.", "anchors": [{"file": "src/generator/clientdefinitionprinter.cpp", "symbols": ["ClientDefinitionPrinter::printMethods", "ClientDefinitionPrinter::printConstructor"]}, {"file": "src/grpc/qabstractgrpcclient.h", "symbols": ["QAbstractGrpcClient::call", "QAbstractGrpcClient::stream", "QAbstractGrpcClient::tryDeserialize"]}, {"file": "src/grpc/qgrpchttp2channel.cpp", "symbols": ["QGrpcHttp2Channel::call", "QGrpcHttp2Channel::stream", "QGrpcHttp2ChannelPrivate::post"]}]}
{"id": "C96", "title": "A server cannot do harm to a client with what it answers", "statement": "Whatever a server or the network answers, a call returns: with one status, with the error signal that belongs to it and no other, without an exception, and the target keeps its value or has values of the types of its fields. The same holds for calls that return a reply, and for every message of a stream.", "quantifier": "all generated clients, methods, arguments and targets, and all bytes that a server may answer with, in any pieces", "why_tests_cant": "Tests use well-behaved servers; the answers of others are arbitrary strings of bytes.", "anchors": [{"file": "src/grpc/qabstractgrpcclient.h", "symbols": ["QAbstractGrpcClient::call", "QAbstractGrpcClient::tryDeserialize"]}, {"file": "src/grpc/qgrpchttp2channel.cpp", "symbols": ["QGrpcHttp2Channel::call", "QGrpcHttp2Channel::stream", "QGrpcHttp2ChannelPrivate::processReply"]}, {"file": "src/protobuf/qprotobufserializer.cpp", "symbols": ["QProtobufSerializer::deserializeMessage", "QProtobufSerializerPrivate::deserializeProperty"]}]}
{"id": "C97", "title": "Fields of Qt types can be used in all messages", "statement": "A message whose fields, or those of messages in it at any depth, alone, in lists or in maps, are of Qt types can be sent next to fields of all other types, and the receiver gets the same values. Programs that do not use the Qt types write the same bytes for the same values and understand each other with those that do.", "quantifier": "all schemas that use the messages of the library, all messages with values of their fields, all depths, lists and maps", "why_tests_cant": "The tests have one message for each Qt type; combinations are unbounded.", "anchors": [{"file": "src/qttypes/qtprotobufqttypes.cpp", "symbols": ["registerQtTypeHandler", "qRegisterProtobufQtTypes"]}, {"file": "src/protobuf/qprotobufserializer.cpp", "symbols": ["QProtobufSerializer::serializeObject", "QProtobufSerializer::serializeMapPair", "QProtobufSerializerPrivate::serializeProperty", "QProtobufSerializerPrivate::deserializeProperty"]}, {"file": "src/generator/messagedefinitionprinter.cpp", "symbols": ["MessageDefinitionPrinter::printInitializationList"]}]}
{"id": "C98", "title": "Programs generated from files with Qt types understand each other", "statement": "If a .proto file uses messages of the Qt types library for fields, the program generated from it sends these fields as the Qt types and every other program generated from the file receives the same values, at any depth. Both see the fields that the file declares, with the Qt type of the name it gives.", "quantifier": "all sets of .proto files, all programs generated from them (QML or not, order of registration, order of tables, Qt types registered), all messages", "why_tests_cant": "The tests have a few files; the files, programs and messages are unbounded.", "anchors": [{"file": "src/generator/generatorcommon.cpp", "symbols": ["common::isQtType", "common::produceQtTypeMap"]}, {"file": "src/qttypes/qtprotobufqttypes.cpp", "symbols": ["registerQtTypeHandler", "qtprotobuf::qRegisterProtobufQtTypes"]}, {"file": "src/protobuf/qprotobufserializer.cpp", "symbols": ["QProtobufSerializerPrivate::serializeProperty", "QProtobufSerializerPrivate::deserializeProperty"]}]}
{"id": "C99", "title": "Clients and servers built from different versions of the .proto files understand each other", "statement": "A generated client can call a server that is built from an older or newer version of the .proto files, with other fields, other messages and further procedures. The procedure of the same name gets the fields that both versions have, with the values that the client gave them, and the client gets those fields of the answers with the values of the server, at any depth, with status Ok; fields that the other side does not know have no effect.", "quantifier": "all pairs of versions of .proto files with the same kinds of fields for the same numbers, all programs generated from them, all messages, all answers and streams of the server", "why_tests_cant": "The tests build client and server from the same files; versions, messages and answers are unbounded.", "anchors": [{"file": "src/grpc/qabstractgrpcclient.cpp", "symbols": ["QAbstractGrpcClient::call", "QAbstractGrpcClient::stream"]}, {"file": "src/grpc/qgrpchttp2channel.cpp", "symbols": ["QGrpcHttp2Channel::call", "QGrpcHttp2Channel::stream"]}, {"file": "src/protobuf/qprotobufserializer.cpp", "symbols": ["QProtobufSerializer::deserializeMessage", "QProtobufSerializerPrivate::skipSerializedFieldBytes"]}]}
{"id": "C100", "title": "The error signal of a client tells each failure of its asynchronous calls exactly once", "statement": "The error signals of a client are, each exactly once, the status codes of its asynchronous calls that failed, at the moment at which the call ends, one signal for each call that was refused because the client has no channel, and one for each response that could not be read. A call that succeeds and whose response can be read causes none, nor does any other event: a later abort, a late answer, a copied or destroyed reply, a new channel.", "quantifier": "all histories of calls, network events, time-outs, aborts, channels and destruction of objects (HTTP/2); all responses", "why_tests_cant": "Failures, aborts and the destruction of objects interleave in arbitrarily many ways; a missing or doubled signal depends on the history.", "anchors": [{"file": "src/grpc/qabstractgrpcclient.cpp", "symbols": ["QAbstractGrpcClient::call"]}, {"file": "src/grpc/qabstractgrpcclient.h", "symbols": ["QAbstractGrpcClient::tryDeserialize", "QAbstractGrpcClient::error"]}, {"file": "src/grpc/qgrpccallreply.cpp", "symbols": ["QGrpcCallReply::abort"]}, {"file": "src/grpc/qgrpchttp2channel.cpp", "symbols": ["QGrpcHttp2Channel::call"]}]}
{"id": "C101", "title": "A method of a generated client works from end to end over the channel that is based on the gRPC library", "statement": "Calling a method of a generated client over the channel that is based on the gRPC library calls the procedure /package.Service/Method of gRPC with the message that the caller passed. For calls the result is the answer of the procedure, with status Ok and without any error signal; for streams the handlers get the procedure's messages, all of them, once and in order, whatever slices the library delivers the bytes in and however the threads interleave. If the library reports an error, the call returns that error, the client emits it once and the target keeps its value.", "quantifier": "all services, methods, messages and programs generated from the same .proto files; all divisions of responses into slices; all interleavings of the threads of the channel", "why_tests_cant": "Tests use one service with a few messages that fit into one slice; names, types, values, slices and schedules are unbounded.", "anchors": [{"file": "src/grpc/qgrpcchannel.cpp", "symbols": ["parseByteBuffer", "parseQByteArray", "QGrpcChannelPrivate::call", "QGrpcChannelPrivate::stream", "QGrpcChannelCall", "QGrpcChannelStream"]}, {"file": "src/grpc/qabstractgrpcclient.cpp", "symbols": ["QAbstractGrpcClient::call", "QAbstractGrpcClient::stream"]}, {"file": "src/generator/templates.cpp", "symbols": ["ClientMethodDefinitionSyncTemplate", "ClientMethodDefinitionAsyncTemplate", "ClientMethodServerStreamDefinitionTemplate"]}]}
{"id": "C102", "title": "Clients and servers of different versions work together over the channel that is based on the gRPC library", "statement": "If client and server are built from different versions of the .proto files, a method of the generated client, used over the channel that is based on the gRPC library, still reaches the procedure of its name. The procedure gets the message as it is in the server's version, and the caller gets the answer (or, for a stream, all the messages, once and in order) as it is in the client's version: fields that both versions have keep their values at any depth, fields that only the receiver has are at their defaults. The status is Ok and no error is emitted, however the threads interleave.", "quantifier": "all pairs of versions (older, newer or neither), services, methods, messages, divisions of responses into slices and interleavings of the threads of the channel", "why_tests_cant": "Tests run client and server from the same files; pairs of versions, messages and schedules are unbounded.", "anchors": [{"file": "src/grpc/qgrpcchannel.cpp", "symbols": ["parseByteBuffer", "QGrpcChannelPrivate::call", "QGrpcChannelPrivate::stream"]}, {"file": "src/protobuf/qprotobufserializer.cpp", "symbols": ["QProtobufSerializer::deserializeMessage", "QProtobufSerializerPrivate::deserializeProperty", "QProtobufSerializerPrivate::skipSerializedFieldBytes"]}, {"file": "src/grpc/qabstractgrpcclient.cpp", "symbols": ["QAbstractGrpcClient::call", "QAbstractGrpcClient::stream"]}]}
{"id": "C103", "title": "Iterators with bounds checks never leave their container", "statement": "QProtobufSelfcheckIterator, the iterator handed to user-defined deserializers, is an offset into its QByteArray. ++, --, +=, -= and + lead to the offset the count says if that is in the container or its end, and throw std::out_of_range otherwise; copies and assignments stand where the original stands; == says whether two iterators stand at the same offset; size() is the number of bytes from the offset to the end; and reading gives the byte at the offset. No use of iterators reads or points outside of the container, also after such an exception was caught.", "quantifier": "all containers and all histories of constructions, copies, assignments, moves by any counts, comparisons and reads of any number of iterators, with exceptions at any points", "why_tests_cant": "Tests move a few iterators by a few counts; histories, counts and container sizes are unbounded.", "anchors": [{"file": "src/protobuf/qprotobufselfcheckiterator.h", "symbols": ["QProtobufSelfcheckIterator"]}]}
{"id": "C104", "title": "Messages with fields of Qt types can be sent as JSON", "statement": "The JSON text of a message with fields of Qt types, in the message itself or in messages in it at any depth, alone, in lists or in maps, is the text that a program without the Qt types writes for the same values as messages of the QtProtobuf library. Both kinds of programs read any text alike, with the same outcome. A message comes back from its text: every Qt value is the one that was sent, every other field too.", "quantifier": "all message types with any fields of Qt types, all values, all texts (JSON or not), all objects that are read into", "why_tests_cant": "Tests send single Qt values in one message type each; types, nesting, values and texts are unbounded.", "anchors": [{"file": "src/protobuf/qprotobufjsonserializer.cpp", "symbols": ["QProtobufJsonSerializer", "QProtobufJsonSerializer::serializeObject", "QProtobufJsonSerializer::deserializeObject"]}, {"file": "src/qttypes/qtprotobufqttypes.cpp", "symbols": ["registerQtTypeHandler", "qRegisterProtobufQtTypes"]}]}
{"id": "C105", "title": "Programs with Qt types from the same .proto files understand each other's JSON texts", "statement": "A program whose messages have fields of Qt types writes and reads JSON texts with the names and types of the .proto files. The text one program writes for a message is read by every other program from the same files as the same message, whichever way their classes were generated (QML or not), in whatever order types were registered and tables are traversed, and whichever other Qt types they register. Both read any other text alike.", "quantifier": "all .proto files with valid JSON names, all programs generated from them, all orders of registrations and tables, all messages and Qt values, all texts", "why_tests_cant": "Tests have one build of a few messages; files, builds, hash orders, values and texts are unbounded.", "anchors": [{"file": "src/protobuf/qprotobufjsonserializer.cpp", "symbols": ["serializeObject", "deserializeObject"]}, {"file": "src/qttypes/qtprotobufqttypes.cpp", "symbols": ["qRegisterProtobufQtTypes"]}, {"file": "src/generator/messagedefinitionprinter.cpp", "symbols": ["printFieldsOrdering"]}]}
