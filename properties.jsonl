{"id": "C01", "title": "Sent messages are decodable RFC 6455 frames", "statement": "The bytes written when a Message is sent form exactly one final, unmasked frame: an RFC 6455 decoder reading them (followed by anything) recovers the same opcode, fin=1, rsv=0 and the same payload, and stops exactly at the end of the frame.", "quantifier": "every message, every payload of fewer than 2^64 bytes, every byte string following it on the wire; payloads shorter than 2^63 bytes", "why_tests_cant": "payload lengths cross three header formats up to 2^63; tests sample a few lengths", "anchors": ["puck/src/ws/frame.rs:Frame::format", "puck/src/ws/frame.rs:Frame::format_length", "puck/src/ws/frame.rs:From<Message> for Frame", "puck/src/ws/send.rs:send_frame"]}
{"id": "C02", "title": "Sent frames use the minimal length form", "statement": "The payload length of every sent frame is encoded in the shortest of the three RFC 6455 forms (7 bit, 16 bit, 64 bit).", "quantifier": "every payload length", "why_tests_cant": "a single wrong boundary among 2^63 lengths", "anchors": ["puck/src/ws/frame.rs:Frame::format", "puck/src/ws/frame.rs:Frame::format_length"]}
{"id": "C03", "title": "Client frames are parsed and unmasked correctly", "statement": "Frame::parse on the bytes of a masked client frame returns that frame: same fin/rsv/opcode, payload unmasked with the frame's key; nothing after the frame is consumed when the frame is delivered on its own.", "quantifier": "every flag combination, opcode, masking key, payload and every delivery of the frame whose read boundaries fall outside the 2-byte header and the masking key", "why_tests_cant": "all keys x payloads x splittings", "anchors": ["puck/src/ws/frame.rs:Frame::parse"]}
{"id": "C04", "title": "Frame parsing does not depend on TCP segmentation", "statement": "Frame::parse returns the same result however the transport splits the bytes of a frame into reads.", "quantifier": "every frame and every splitting of its bytes into reads", "why_tests_cant": "the outcome depends on how TCP splits the bytes into reads; there are unboundedly many splittings", "anchors": ["puck/src/ws/frame.rs:Frame::parse"]}
{"id": "C05", "title": "Unmasked client data is rejected", "statement": "A frame with a non-empty payload whose mask bit is clear is rejected with MaskNotSet and never reaches the application.", "quantifier": "every header with mask bit clear and non-zero length, every following bytes", "why_tests_cant": "all headers and lengths", "anchors": ["puck/src/ws/frame.rs:Frame::parse"]}
{"id": "C06", "title": "A truncated frame is never delivered", "statement": "If the connection ends before the declared payload is complete Frame::parse returns an error, WaitForNextFrame with exactly the number of missing bytes for a non-final frame and IoError for a final one.", "quantifier": "every declared length, every shorter prefix, every splitting (each frame delivered with no read boundary inside its first two bytes or masking key; total payload allocatable)", "why_tests_cant": "all crash points of the peer", "anchors": ["puck/src/ws/frame.rs:Frame::parse", "puck/src/ws/frame.rs:ParseFrameError"]}
{"id": "C07", "title": "Declared payload length is honoured", "statement": "Whenever Frame::parse returns a frame, its payload has exactly the length declared in the frame header.", "quantifier": "every input stream and every pointer width of the target (the repository builds for wasm32)", "why_tests_cant": "needs lengths above 2^32", "anchors": ["puck/src/ws/frame.rs:Frame::parse"]}
{"id": "C08", "title": "No bytes of the next frame are lost", "statement": "After Frame::parse returns, the next call sees the byte right after the frame just parsed, even if the peer's frames were coalesced into one TCP segment.", "quantifier": "every sequence of frames and every splitting of their concatenation", "why_tests_cant": "the outcome depends on how TCP splits the bytes into reads; there are unboundedly many splittings", "anchors": ["puck/src/ws/frame.rs:Frame::parse", "puck/src/ws/message.rs:Message::next"]}
{"id": "C09", "title": "Empty masked frames are consumed entirely", "statement": "Parsing a masked frame with an empty payload consumes its 4 byte masking key, so the next frame starts at the right place.", "quantifier": "every empty masked frame and every splitting", "why_tests_cant": "the outcome depends on how TCP splits the bytes into reads; there are unboundedly many splittings", "anchors": ["puck/src/ws/frame.rs:Frame::parse"]}
{"id": "C10", "title": "Fragmented messages are reassembled in order", "statement": "Message::next over a text/binary/ping/pong message sent as any number of fragments returns the message whose payload is the in-order concatenation of the fragment payloads.", "quantifier": "every number of fragments, every payload, every masking key per fragment (each frame delivered with no read boundary inside its first two bytes or masking key; total payload allocatable)", "why_tests_cant": "unbounded number of fragments", "anchors": ["puck/src/ws/message.rs:Message::next"]}
{"id": "C11", "title": "Text messages are valid UTF-8 and invalid text is rejected", "statement": "Message::next returns Text(s) only with s valid UTF-8, equal to the bytes sent; a text message with invalid bytes, whole or fragmented (also in the middle of a code point), gives ClientProtocolViolationError.", "quantifier": "every payload and fragmentation (each frame delivered with no read boundary inside its first two bytes or masking key; total payload allocatable)", "why_tests_cant": "all byte strings", "anchors": ["puck/src/ws/message.rs:Message::next"]}
{"id": "C12", "title": "Interleaved control frames do not destroy a fragmented message", "statement": "A ping or pong injected between the fragments of a message (RFC 6455 5.4) does not prevent the message from being delivered.", "quantifier": "every fragmented message and injection point", "why_tests_cant": "all interleavings", "anchors": ["puck/src/ws/message.rs:Message::next"]}
{"id": "C13", "title": "A close frame is reported wherever it appears", "statement": "If the next frame, or any continuation frame of a message being assembled, is a close frame, Message::next returns ClientSentCloseFrame and no message.", "quantifier": "every number of fragments before the close frame (each frame delivered with no read boundary inside its first two bytes or masking key; total payload allocatable)", "why_tests_cant": "unbounded histories", "anchors": ["puck/src/ws/message.rs:Message::next"]}
{"id": "C14", "title": "No client input can crash the frame parser", "statement": "Frame::parse and Message::next return a value for every input; no byte sequence makes them panic.", "quantifier": "every byte stream, every splitting, every transport error", "why_tests_cant": "adversarial input space", "anchors": ["puck/src/ws/frame.rs:Frame::parse", "puck/src/ws/message.rs:Message::next"]}
{"id": "C15", "title": "Reserved bits and opcodes never reach the application", "statement": "A frame with a reserved opcode or a set RSV bit is never delivered as a message.", "quantifier": "every first header byte and continuation", "why_tests_cant": "all 256 header bytes in every position of a message", "anchors": ["puck/src/ws/frame.rs:Frame::parse", "puck/src/ws/message.rs:Message::next"]}
{"id": "C16", "title": "A closed WebSocket stays closed and silent", "statement": "Once next has returned ConnectionClosed, every later next returns ConnectionClosed, reads nothing and writes nothing.", "quantifier": "every later history of calls and every remaining input", "why_tests_cant": "unbounded histories", "anchors": ["puck/src/ws/websocket.rs:Iterator for WebSocket"]}
{"id": "C17", "title": "Exactly one close frame per connection", "statement": "Over any sequence of next calls followed by close, exactly one close frame is written to the peer.", "quantifier": "every input stream and number of calls", "why_tests_cant": "histories", "anchors": ["puck/src/ws/websocket.rs:WebSocket::close", "puck/src/ws/websocket.rs:send_close_frame"]}
{"id": "C18", "title": "Every ping is answered by one identical pong", "statement": "When next returns Ping(payload) exactly one pong frame with the same payload has been written since the call started and nothing else; when it returns any other message nothing was written.", "quantifier": "every payload, every input", "why_tests_cant": "all payloads/histories", "anchors": ["puck/src/ws/websocket.rs:Iterator for WebSocket"]}
{"id": "C19", "title": "No data frame follows our close frame", "statement": "After the endpoint wrote a close frame it writes no further data frame (RFC 6455 5.5.1).", "quantifier": "every sequence of next/send calls", "why_tests_cant": "histories", "anchors": ["puck/src/ws/websocket.rs:WebSocket::send", "puck/src/ws/websocket.rs:WebSocketState"]}
{"id": "C20", "title": "A vanished peer is eventually reported as closed", "statement": "If the peer disconnects without a close frame, iterating the WebSocket eventually returns ConnectionClosed.", "quantifier": "every input ending in end-of-file", "why_tests_cant": "liveness over unbounded iteration", "anchors": ["puck/src/ws/websocket.rs:Iterator for WebSocket", "puck/src/ws/message.rs:From<ParseFrameError> for DecodeMessageError"]}
{"id": "C21", "title": "A failing transport never shows more than a prefix", "statement": "If writing a frame fails after any number of bytes the bytes on the wire are a prefix of the frame's encoding and send returns IoError; if it succeeds the encoding is complete. Over a connection that takes n bytes in all, handshake response and any series of sends put exactly the first n bytes of response and encodings on the wire, and a send succeeds exactly if all of it fits.", "quantifier": "every frame, every series of messages and every failure point", "why_tests_cant": "every crash point", "anchors": ["puck/src/ws/send.rs:send_frame", "puck/src/ws/frame.rs:Frame::format", "puck/src/ws/websocket.rs:WebSocket::send", "puck/src/core/mod.rs:Stream::upgrade"]}
{"id": "C22", "title": "Handshake accept value", "statement": "The Sec-WebSocket-Accept value is base64(SHA-1(key ++ GUID)): it is 28 characters, and base64-decodes to the 20 byte SHA-1 digest of the key followed by the RFC 6455 GUID.", "quantifier": "every key", "why_tests_cant": "all strings", "anchors": ["puck/src/ws/upgrade.rs:compute_accept_header"]}
{"id": "C23", "title": "Upgrade writes exactly one response", "statement": "Upgrading a request writes exactly one HTTP response: 101 with Connection, Sec-WebSocket-Accept and Upgrade iff the request asks for a websocket and carries a key, otherwise a 400; a WebSocket is returned only in the first case.", "quantifier": "every request", "why_tests_cant": "all header maps", "anchors": ["puck/src/ws/upgrade.rs:perform_upgrade", "puck/src/core/mod.rs:Stream::upgrade"]}
{"id": "C24", "title": "Upgrade detection follows HTTP header rules", "statement": "Whether a request is upgraded depends only on the header fields as HTTP defines them: field names are case-insensitive.", "quantifier": "every header map", "why_tests_cant": "all maps/casings", "anchors": ["puck/src/ws/upgrade.rs:should_upgrade"]}
{"id": "C25", "title": "Request head extraction is exact and segmentation independent", "statement": "Request::parse and Response::parse use as head the shortest prefix of the byte stream ending in CRLFCRLF and leave exactly the following bytes to the body, however the transport splits the stream.", "quantifier": "every byte stream and splitting (with interrupted reads)", "why_tests_cant": "the outcome depends on how TCP splits the bytes into reads; there are unboundedly many splittings", "anchors": ["puck/src/request/mod.rs:Request::parse", "puck/src/response/mod.rs:Response::parse"]}
{"id": "C26", "title": "Incomplete requests and responses give None, transport errors give IoError", "statement": "If the stream ends before a complete head Request::parse and Response::parse return Ok(None); if a read fails first they return IoError; they always terminate.", "quantifier": "every stream", "why_tests_cant": "every crash point of the peer", "anchors": ["puck/src/request/mod.rs:Request::parse", "puck/src/response/mod.rs:Response::parse"]}
{"id": "C27", "title": "Parsed headers are faithful", "statement": "After parsing, looking up a header name returns the value of its last occurrence in the head, and no other names are present; invalid UTF-8 in a value is rejected.", "quantifier": "every head with at most 20 headers", "why_tests_cant": "all header lists", "anchors": ["puck/src/request/mod.rs:Request::parse"]}
{"id": "C28", "title": "The URL comes from the request target and Host", "statement": "Every parsed request has a Host header; its URL is the target if absolute, http://host+target for origin form, http://host/ for CONNECT; anything else is InvalidUrl and a missing Host is MissingHeader.", "quantifier": "every head", "why_tests_cant": "all heads", "anchors": ["puck/src/request/mod.rs:Request::parse"]}
{"id": "C29", "title": "Content-Length bounds the body exactly", "statement": "Reading a request body to the end yields exactly the first min(Content-Length, available) bytes after the head and never a byte of what follows, for every sequence of read sizes.", "quantifier": "every length, stream, splitting and sequence of read buffer sizes", "why_tests_cant": "the outcome depends on how TCP splits the bytes into reads; there are unboundedly many splittings", "anchors": ["puck/src/body/mod.rs:Read for Body", "puck/src/request/mod.rs:Request::parse"]}
{"id": "C30", "title": "Request framing is unambiguous", "statement": "The URL and body length of a parsed request are functions of the bytes received.", "quantifier": "every head and every hash-map iteration order", "why_tests_cant": "HashMap iteration order is random per process", "anchors": ["puck/src/request/mod.rs:Request::parse"]}
{"id": "C31", "title": "Request write/parse round trip", "statement": "Writing a request and parsing the bytes gives back the method, all headers, the URL path and the body.", "quantifier": "every well-formed request with at most 20 headers, every header iteration order, every splitting", "why_tests_cant": "all requests", "anchors": ["puck/src/request/mod.rs:Request::write", "puck/src/request/mod.rs:Request::parse"]}
{"id": "C32", "title": "The query string survives write/parse", "statement": "A request written to the wire addresses the same resource: path and query.", "quantifier": "every URL", "why_tests_cant": "all URLs", "anchors": ["puck/src/request/mod.rs:Request::write"]}
{"id": "C33", "title": "Methods round trip", "statement": "Parsing the written form of a method gives the same method.", "quantifier": "every method", "why_tests_cant": "all strings", "anchors": ["puck/src/request/mod.rs:Method::new_from_str", "puck/src/request/mod.rs:Method::write"]}
{"id": "C34", "title": "Response encoding is deterministic and exact", "statement": "The encoder writes status line, headers in byte order of their names one per line, blank line, body; the bytes depend only on the response, not on hash-map order.", "quantifier": "every response and iteration order", "why_tests_cant": "HashMap order is random", "anchors": ["puck/src/response/encoder.rs:Encoder::write_tcp_stream"]}
{"id": "C35", "title": "Response encode/parse round trip", "statement": "Parsing an encoded response gives back status, reason, headers and body.", "quantifier": "every well-formed response with at most 20 headers, every order, every splitting", "why_tests_cant": "all responses", "anchors": ["puck/src/response/encoder.rs:Encoder::write_tcp_stream", "puck/src/response/mod.rs:Response::parse"]}
{"id": "C36", "title": "Content-Length bounds a response body", "statement": "The body of a parsed response stops after Content-Length bytes.", "quantifier": "every response and stream", "why_tests_cant": "all streams", "anchors": ["puck/src/response/mod.rs:Response::parse"]}
{"id": "C37", "title": "Header values cannot inject protocol elements", "statement": "Each header of a response yields exactly one header line in the output; values cannot add headers or end the head.", "quantifier": "every header value", "why_tests_cant": "all strings", "anchors": ["puck/src/response/encoder.rs:Encoder::write_tcp_stream", "puck/src/response/builder.rs:ResponseBuilder::header"]}
{"id": "C38", "title": "Malformed response heads are rejected", "statement": "Response::parse returns an error when the head is not a valid HTTP response head.", "quantifier": "every head", "why_tests_cant": "all heads", "anchors": ["puck/src/response/mod.rs:Response::parse"]}
{"id": "C39", "title": "String bodies round trip", "statement": "A body made from a string reads back, via into_string, into_bytes or any sequence of reads, exactly that string, with length equal to its byte length.", "quantifier": "every string and every read schedule", "why_tests_cant": "all strings/schedules", "anchors": ["puck/src/body/mod.rs:Body::from_string", "puck/src/body/mod.rs:Body::into_string", "puck/src/body/mod.rs:Body::into_bytes", "puck/src/body/mod.rs:Body::empty"]}
{"id": "C40", "title": "Body reads never over-deliver", "statement": "At any time the number of bytes a body has yielded is at most its declared length, each read returns at most the buffer size, the concatenation of the reads is a prefix of the source, and length arithmetic never underflows.", "quantifier": "every reader, declared length and read history", "why_tests_cant": "histories", "anchors": ["puck/src/body/mod.rs:Read for Body"]}
{"id": "C41", "title": "MIME parameters are serialised unambiguously", "statement": "The printed form of a MIME type determines its essence and parameter values: quoting/escaping can be undone.", "quantifier": "every parameter value", "why_tests_cant": "all strings", "anchors": ["puck/src/body/mime.rs:format", "puck/src/body/mime.rs:EscapeMimeValue"]}
{"id": "C42", "title": "Request builder semantics", "statement": "build succeeds iff a method was supplied; for each header name the last value set wins; body defaults to empty.", "quantifier": "every sequence of builder calls", "why_tests_cant": "call histories", "anchors": ["puck/src/request/builder.rs:RequestBuilder"]}
{"id": "C43", "title": "Response builder semantics", "statement": "build never fails; status defaults to 200 and reason to empty, last status/body/header set wins.", "quantifier": "every sequence of builder calls", "why_tests_cant": "call histories", "anchors": ["puck/src/response/builder.rs:ResponseBuilder::build"]}
{"id": "C44", "title": "First matching route wins, exactly once", "statement": "A request is handled by exactly one handler, that of the first route (in registration order) whose matcher accepts it, with the request and state given; no handler runs if none matches.", "quantifier": "every route list, request and state", "why_tests_cant": "all lists", "anchors": ["puck/src/core/router/mod.rs:Router::respond", "puck/src/core/router/mod.rs:Router::route"]}
{"id": "C45", "title": "Shipping a router to another process preserves it", "statement": "Converting a router to integers and back yields a router with the same matchers and handlers in the same order.", "quantifier": "every router", "why_tests_cant": "all lists", "anchors": ["puck/src/core/router/mod.rs:Router::as_ints", "puck/src/core/router/mod.rs:Router::from_ints"]}
{"id": "C46", "title": "URL matching is positional and exact", "statement": "A Match accepts an URL iff the path has exactly as many segments as the matcher and each segment matches: static equal, anything always, integer iff an i32 literal.", "quantifier": "every matcher and URL", "why_tests_cant": "all segment lists", "anchors": ["puck/src/core/router/match_url.rs:Match::does_match"]}
{"id": "C47", "title": "Integer segments are exactly i32 literals", "statement": "any_integer accepts a segment iff it is an optional sign followed by one or more decimal digits whose value is in [-2^31, 2^31-1].", "quantifier": "every string", "why_tests_cant": "all strings", "anchors": ["puck/src/core/router/match_url.rs:Segment::IntParam"]}
{"id": "C48", "title": "Every accepted connection gets a response", "statement": "For each accepted connection serve_router sends a response or runs a handler.", "quantifier": "every byte stream and router", "why_tests_cant": "all inputs", "anchors": ["puck/src/core/mod.rs:Core::serve_router", "puck/src/core/router/mod.rs:Router::run", "puck/src/core/mod.rs:Core::for_each"]}
{"id": "C49", "title": "Applying a diff yields the new tree", "statement": "For old and new element trees, applying old.diff(new) to old gives new (same ids, names, attributes, listeners, text, children).", "quantifier": "every pair of trees whose edits are id-safe, every attribute iteration order", "why_tests_cant": "infinitely many tree pairs", "anchors": ["puck_liveview/src/dom/element/diff/mod.rs:Element::diff", "puck_liveview/src/dom/element/diff/changeset/apply.rs:Changeset::apply"]}
{"id": "C50", "title": "Re-rendered pages stay in sync", "statement": "For two trees numbered by fresh id generators whose matched-up nodes keep their ids, or move back keeping name and listeners (in-place changes, growth at the end, shrinkage anywhere), applying the diff gives the new tree.", "quantifier": "every pair of trees numbered by fresh generators in which every matched-up node keeps its id or (after a deletion before it) gets a smaller one keeping name and listeners: in-place changes, growth at the end, shrinkage anywhere", "why_tests_cant": "infinitely many tree pairs", "anchors": ["puck_liveview/src/dom/element/diff/mod.rs:Element::diff", "puck_liveview/src/dom/element/diff/changeset/apply.rs:Changeset::apply", "puck_liveview/src/html/mod.rs:WrappedBodyNode::into_element"]}
{"id": "C51", "title": "Diffs are correct for all re-renders", "statement": "For any two trees produced by into_element with fresh id generators, applying the diff to the first gives the second.", "quantifier": "every pair of wrapped nodes", "why_tests_cant": "infinitely many tree pairs", "anchors": ["puck_liveview/src/dom/element/diff/mod.rs:Element::diff_name", "puck_liveview/src/dom/element/diff/mod.rs:Element::diff_listeners", "puck_liveview/src/dom/element/diff/mod.rs:Element::diff_children"]}
{"id": "C52", "title": "An unchanged page sends no operations", "statement": "Diffing a tree with an equal tree yields the empty changeset; and the changeset is empty only if nothing observable changed.", "quantifier": "every pair of trees without keys (what into_element produces), every attribute order", "why_tests_cant": "all trees", "anchors": ["puck_liveview/src/dom/element/diff/mod.rs:Element::diff"]}
{"id": "C53", "title": "Keyed children follow their keys", "statement": "With keyed children, insertions, deletions and reorderings are applied so that the result has the new children in the new order.", "quantifier": "every pair of keyed child lists", "why_tests_cant": "all permutations", "anchors": ["puck_liveview/src/dom/element/diff/mod.rs:Element::diff_children", "puck_liveview/src/dom/element/diff/mod.rs:Element::locate_child_by_key"]}
{"id": "C54", "title": "Diffing never panics", "statement": "Element::diff returns a changeset for every pair of trees.", "quantifier": "every pair of trees", "why_tests_cant": "all trees", "anchors": ["puck_liveview/src/dom/element/diff/mod.rs:Element::diff_children"]}
{"id": "C55", "title": "Element ids are unique", "statement": "into_element assigns pre-order consecutive ids starting at the generator's head, so ids in a tree are pairwise distinct and the generator advances by the number of elements.", "quantifier": "every wrapped tree and starting id", "why_tests_cant": "all trees", "anchors": ["puck_liveview/src/html/mod.rs:WrappedBodyNode::into_element", "puck_liveview/src/html/id.rs:IdGen::new_id"]}
{"id": "C56", "title": "Conversion preserves the page", "statement": "into_element keeps every node: tag, attributes, listeners, text and children.", "quantifier": "every wrapped tree", "why_tests_cant": "all trees", "anchors": ["puck_liveview/src/html/mod.rs:WrappedBodyNode::into_element"]}
{"id": "C57", "title": "Instructions survive the wire", "statement": "The JSON text sent for a changeset, parsed and split as the browser does, denotes exactly the instructions of the changeset.", "quantifier": "every changeset", "why_tests_cant": "all strings", "anchors": ["puck_liveview/src/dom/element/diff/changeset/instruction_serializer.rs:InstructionSerializer", "puck_liveview/src/dom/element/diff/changeset/instruction_serializer.rs:OpSerializer", "puck_liveview/client/index.js:ws.onmessage"]}
{"id": "C58", "title": "First paint builds the page in the browser", "statement": "Executing the instructions for a first render in an empty document builds the DOM tree corresponding to the element tree, listeners included.", "quantifier": "every tree with unique ids whose tag and attribute names are lower-case DOM names other than id and whose attribute values and listener names contain no plus sign (texts are arbitrary)", "why_tests_cant": "all trees", "anchors": ["puck_liveview/src/dom/element/diff/mod.rs:Element::create_from_scratch", "puck_liveview/client/index.js:ws.onmessage"]}
{"id": "C59", "title": "Updates keep the browser in sync", "statement": "Executing the instructions of a diff in a browser showing the old tree makes it show the new tree, listeners included.", "quantifier": "every pair of trees", "why_tests_cant": "all tree pairs", "anchors": ["puck_liveview/src/dom/element/diff/mod.rs:Element::diff", "puck_liveview/client/index.js:ws.onmessage"]}
{"id": "C60", "title": "The component loop's snapshot is always current", "statement": "At every point the DOM snapshot and listener table used by the component loop are those rendered from the component's current state, each handled event causes exactly one update and one changeset message, everything else causes none.", "quantifier": "every component, every message history", "why_tests_cant": "histories", "anchors": ["puck_liveview/src/component/mod.rs:main_loop", "puck_liveview/src/component/mod.rs:perform_diff"]}
{"id": "C61", "title": "The component stops on close", "statement": "When the WebSocket reports ConnectionClosed the component is dropped and processes nothing further; malformed client messages never stop it.", "quantifier": "every message history", "why_tests_cant": "histories", "anchors": ["puck_liveview/src/component/mod.rs:main_loop"]}
{"id": "C62", "title": "The first message a component process sees is its own identity", "statement": "In every interleaving of the supervisor, reader and component processes the first mailbox message is WhoAmI and no other WhoAmI ever arrives, so the loop never hits its unreachable branches; inputs are delivered in the order sent.", "quantifier": "every schedule of the three processes", "why_tests_cant": "all interleavings", "anchors": ["puck_liveview/src/component/mod.rs:manage", "puck_liveview/src/component/mod.rs:main_loop"]}
{"id": "C63", "title": "Component and browser stay in sync over a session", "statement": "For every session history whose re-renders are id-safe, a client applying the received changesets in order holds exactly the tree rendered from the component's current state.", "quantifier": "every component, history", "why_tests_cant": "unbounded histories", "anchors": ["puck_liveview/src/component/mod.rs:main_loop", "puck_liveview/src/dom/element/diff/mod.rs:Element::diff", "puck_liveview/src/dom/element/diff/changeset/apply.rs:Changeset::apply"]}
{"id": "C64", "title": "Server-side HTML rendering is well nested and safe", "statement": "Element::render produces properly nested tags with the element's content, and text/attribute values cannot introduce markup.", "quantifier": "every tree", "why_tests_cant": "all trees/strings", "anchors": ["puck_liveview/src/dom/element/render.rs:Element::render"]}
{"id": "C65", "title": "Chat user ids are unique", "statement": "A newly registered user never receives an id that is in use by another registered user, whatever the history of registrations and removals.", "quantifier": "every history of requests", "why_tests_cant": "histories with recycling", "anchors": ["examples/chat/src/main.rs:UserIdCreator::get_id", "examples/chat/src/main.rs:UserIdCreator::release_id", "examples/chat/src/main.rs:ChatServerState::handle"]}
{"id": "C66", "title": "Chat messages reach everyone once", "statement": "Sending a message delivers it exactly once to every other registered user's process and returns it to the sender, with the sender's registered name; nobody else receives it.", "quantifier": "every server state reachable by requests", "why_tests_cant": "histories", "anchors": ["examples/chat/src/main.rs:ChatServerState::handle"]}
{"id": "C67", "title": "The chat page stays in sync", "statement": "For every history of the chat component the client tree equals the rendered tree after each update.", "quantifier": "every history of inputs", "why_tests_cant": "histories", "anchors": ["examples/chat/src/main.rs:LiveviewComponent::render", "examples/chat/src/main.rs:LiveviewComponent::update", "puck_liveview/src/dom/element/diff/mod.rs:Element::diff"]}
{"id": "C68", "title": "List example returns the last n items", "statement": "LastN(n) returns the last n items in order (all if fewer).", "quantifier": "every list and n", "why_tests_cant": "all lists", "anchors": ["examples/list/src/main.rs:List::handle"]}
{"id": "C69", "title": "No client bytes are lost in the WebSocket handshake", "statement": "Frames a client sends behind its handshake request are received by the WebSocket returned from upgrade.", "quantifier": "every handshake request, every frames behind it, every segmentation", "why_tests_cant": "Depends on how the transport segments the stream; a test fixes one segmentation.", "anchors": ["puck/src/request/mod.rs: Request::parse", "puck/src/core/mod.rs: Stream::upgrade", "puck/src/ws/websocket.rs: WebSocket::next"]}
{"id": "C70", "title": "Connections are handled independently", "statement": "What serve_router does with one accepted connection depends only on that connection, the router and the initial state: other connections, however malformed or crashing, neither change nor suppress it.", "quantifier": "every sequence of accept results and every connection in it", "why_tests_cant": "Needs every combination of good and bad connections before and after.", "anchors": ["puck/src/core/mod.rs:Core::serve_router", "puck/src/core/router/mod.rs:Router::run"]}
{"id": "C71", "title": "User attributes do not interfere with liveview", "statement": "Whatever attributes a component puts on its elements, the page is built in the browser and later updates reach the right elements; in particular an attribute named id does not break the addressing.", "quantifier": "every page, every attribute map", "why_tests_cant": "Quantifies over all attribute maps of all pages.", "anchors": ["puck_liveview/client/index.js:ws.onmessage", "puck_liveview/src/dom/element/diff/mod.rs:Element::create_from_scratch"]}
{"id": "C72", "title": "Browser events reach the component", "statement": "If the browser shows a page and every listener on the page has a handler in the component's listener table, then triggering the listener's event on the element sends a message that makes the component process call exactly that handler, with the element's value for input events.", "quantifier": "every page, listener table, listener and element value (any characters)", "why_tests_cant": "All pages and all strings, through JSON quoting on both sides.", "anchors": ["puck_liveview/client/index.js:attachListener", "puck_liveview/src/component/mod.rs:main_loop", "puck_liveview/src/client/mod.rs:ClientMessage", "puck_liveview/src/dom/listener.rs:Listener"]}
{"id": "C73", "title": "A component is dropped when its client goes away", "statement": "When the client's connection ends, with or without a close frame, the component process drops the component and ends.", "quantifier": "every component, every history of messages, every way a connection can end", "why_tests_cant": "Needs unbounded histories and an infinite sequence of reads after the end of the stream.", "anchors": ["puck_liveview/src/component/mod.rs:manage", "puck_liveview/src/component/mod.rs:main_loop", "puck/src/ws/websocket.rs:WebSocket::next"]}
{"id": "C74", "title": "End to end: bytes in, page out", "statement": "A client that sends text messages as masked frames, fragmented as it likes, is understood by the component as those texts in order, interleaved with inputs of other processes; what the server writes decodes as RFC 6455 text frames, and a browser handling their payloads from an empty document shows the page of the component's current state.", "quantifier": "every component with id-safe, browser-supported re-renders; every sequence of client messages, fragmentations and masks; every interleaving with inputs", "why_tests_cant": "Composition of unbounded histories through framing, JSON, diffing and the browser.", "anchors": ["puck_liveview/src/component/mod.rs:manage", "puck/src/ws/websocket.rs:WebSocket", "puck_liveview/client/index.js:ws.onmessage", "puck_liveview/src/dom/element/diff/mod.rs:Element::diff"]}
{"id": "C75", "title": "The chat page in the browser stays in sync", "statement": "For every history of the chat process, the browser document that results from applying the received texts shows the page of the component's current state, and every listener in it triggers the handler the page has for it.", "quantifier": "every history of inputs and browser texts", "why_tests_cant": "unbounded histories and arbitrary typed text", "anchors": ["examples/chat/src/main.rs:LiveviewComponent", "puck_liveview/client/src/index.ts", "puck_liveview/src/dom/element/diff/changeset.rs"]}
{"id": "C76", "title": "The chat component never panics", "statement": "Whatever texts a browser sends and in whatever order chat messages arrive, the chat component reaches no unreachable!()/todo!() and no failing comparison.", "quantifier": "every history of browser texts and server messages", "why_tests_cant": "all histories including stale clicks", "anchors": ["examples/chat/src/main.rs:LiveviewComponent::update"]}
{"id": "C77", "title": "The whole chat never crashes", "statement": "With any number of sessions opening, typing, sending and closing in any interleaving, neither the server process nor a component crashes, and the registered users are exactly the sessions that joined and have not left.", "quantifier": "every interleaving of any number of sessions", "why_tests_cant": "concurrent interleavings with id recycling", "anchors": ["examples/chat/src/main.rs:ChatServerState::handle", "examples/chat/src/main.rs:LiveviewComponent", "puck_liveview/src/component/mod.rs:main_loop"]}
{"id": "C78", "title": "List handlers answer every request", "statement": "No request makes a handler of the list example panic.", "quantifier": "every method, path and body", "why_tests_cant": "all paths that the matcher accepts", "anchors": ["examples/list/src/main.rs:main", "puck/src/core/router/match_url.rs:Match::does_match"]}
{"id": "C79", "title": "All chat participants see the same conversation", "statement": "Every participant sees all messages sent since it joined, each exactly once, and all participants see them in the same order.", "quantifier": "every interleaving of any number of sessions", "why_tests_cant": "concurrent interleavings", "anchors": ["examples/chat/src/main.rs:ChatServerState::handle", "examples/chat/src/main.rs:LiveviewComponent::update"]}
{"id": "C80", "title": "Frames of two processes stay whole", "statement": "A live view's reader process (which answers pings and the close frame) and its component process (which sends updates) write to the same socket. Whatever the schedule, the bytes the client receives are a sequence of WebSocket frames, and these are exactly the answers and the updates, each side's in its order.", "quantifier": "every input stream, number of reads, list of updates and interleaving of the two processes' write calls", "why_tests_cant": "It depends on how the writes of two processes interleave; tests see a few schedules.", "anchors": ["puck_liveview/src/component/mod.rs: manage, main_loop, perform_diff", "puck/src/ws/websocket.rs: make_copy, next, send", "puck/src/ws/send.rs: send_frame", "puck/src/ws/frame.rs: Frame::format"]}
{"id": "C81", "title": "Flat pages always stay in sync", "statement": "For any two pages made of one node with a list of childless nodes in it (no bare text nodes), whatever kinds, attributes, texts and listeners they have, rendering both with fresh ids, diffing the first against the second and applying the changeset to the first (or a copy of it) succeeds and yields the second. In particular for any two bare nodes.", "quantifier": "every pair of flat pages, every hash-map order, every pointer width", "why_tests_cant": "The repository fuzzes the bare-node case; the claim is about all attribute maps, texts and list lengths.", "anchors": ["puck_liveview/tests/diffing.rs: test_diff", "puck_liveview/src/html/mod.rs: into_element", "puck_liveview/src/dom/element/diff/mod.rs: diff", "puck_liveview/src/dom/element/diff/changeset/apply.rs: apply"]}
{"id": "C82", "title": "The live view's pages are served intact", "statement": "Responding with init::index() writes exactly a 200 response with Content-Type text/html and the page; init::js() the same with application/javascript and the script. If the connection takes fewer bytes, exactly a prefix is written and an error reported. A client that reads to the end of the connection obtains status 200, the content type and the complete page, however the bytes are split. The page has exactly one script element, with source ./js.", "quantifier": "every script text, write failure point, read schedule and segmentation", "why_tests_cant": "It is about all failure points and segmentations.", "anchors": ["puck_liveview/src/init.rs: index, js", "puck/src/response/encoder.rs: write_tcp_stream", "puck/src/core/mod.rs: Stream::respond"]}
{"id": "C83", "title": "What a connection to the chat server gets", "statement": "For every well-formed request with a Host: path /js gets the script, / gets the page, /ws with the handshake headers gets exactly the 101 response and becomes an open WebSocket, /ws without one of them gets exactly the 400 page, and every other path gets nothing. If the connection breaks while a response is written, the process of that connection panics and is never a live view. A connection that ends before its request is complete is answered 400; one whose request cannot be read ends without an answer.", "quantifier": "every request head, header order, segmentation, write failure point", "why_tests_cant": "It composes parsing, URL matching, routing, and the handshake over all requests.", "anchors": ["examples/chat/src/main.rs: main", "puck/src/core/mod.rs: serve_router, Stream::upgrade, Stream::respond", "puck/src/core/router/mod.rs: respond"]}
{"id": "C84", "title": "The page finds its script and its socket", "statement": "If index() is mounted at a path and js() at <path>/js, as the documentation says, the browser requests the script and the socket below that path.", "quantifier": "every mount path", "why_tests_cant": "It is about all mount paths; the example only uses /.", "anchors": ["puck_liveview/src/init.rs: index, js", "puck_liveview/client/index.js: line 1"]}
{"id": "C85", "title": "A chat session from the first byte to the page", "statement": "A client that performs the handshake on /ws and then (in later segments) sends text messages gets the 101 response; the chat component processes exactly those texts in order, interleaved with what other users say; the bytes the server sends afterwards decode into text frames, and a browser handling them shows the page of the component's current state (if no value containing + was typed).", "quantifier": "every fragmentation, masking, segmentation, interleaving with other users' messages, and length of the session", "why_tests_cant": "It quantifies over whole sessions and schedules.", "anchors": ["examples/chat/src/main.rs", "puck_liveview/src/component/mod.rs: manage, main_loop", "puck/src/ws", "puck_liveview/client/index.js"]}
{"id": "C86", "title": "Everything sent to a component is eventually handled", "statement": "Whatever is sent to the process that manage returns, and whatever is read from the WebSocket, is eventually received by the component process, inputs in the order they were sent, in every fair schedule: nothing is stuck for ever in the supervisor's or the component's mailbox, also if it arrives while the processes are still being set up.", "quantifier": "all infinite executions of the three processes of manage that schedule the supervisor and the component fairly; all moments in them", "why_tests_cant": "Liveness over infinite schedules: no finite run can show it.", "anchors": ["puck_liveview/src/component/mod.rs:manage", "puck_liveview/src/component/mod.rs:main_loop"]}
{"id": "C87", "title": "Every chat message is eventually shown", "statement": "In the chat example, a user who has joined and stays comes to see every message said since joining, as often as it was said, in every schedule that lets their component run again and again, whatever the others do (write, join, leave).", "quantifier": "all infinite executions of the chat (any number of sessions opening, typing, sending, closing) in which the component of the user is scheduled fairly", "why_tests_cant": "Liveness over infinite schedules with unboundedly many users.", "anchors": ["examples/chat/src/main.rs:LiveviewComponent", "examples/chat/src/main.rs:handle", "puck_liveview/src/component/mod.rs:manage"]}
{"id": "C88", "title": "Copies of a WebSocket agree that it is closed", "statement": "WebSocket::make_copy gives a handle to the same connection: once the connection was closed through one handle, every handle reports ConnectionClosed, and however many handles there are the connection carries one close frame.", "quantifier": "all sequences of calls (next, send, close, make_copy) on any number of handles of a connection, all input streams", "why_tests_cant": "All call sequences over all handles and inputs.", "anchors": ["puck/src/ws/websocket.rs:make_copy", "puck/src/ws/websocket.rs:next", "puck/src/ws/websocket.rs:close"]}
{"id": "C89", "title": "replace_body and take_body hand over bodies one by one", "statement": "Over any sequence of replace_body and take_body calls on a request or response, every body comes out exactly once and in the order in which it was put in, the last one stays; Content-Type becomes that of the body in place, all other headers, method, URL, status and reason are unchanged; and when the message is then sent, the receiver gets the new body.", "quantifier": "all messages, all sequences of calls, all bodies", "why_tests_cant": "All call sequences and all bodies and header sets.", "anchors": ["puck/src/request/mod.rs:replace_body", "puck/src/request/mod.rs:take_body", "puck/src/response/mod.rs:replace_body", "puck/src/response/mod.rs:take_body"]}
{"id": "C90", "title": "Every request sent on a connection is served", "statement": "A client that sends several requests on one connection gets each of them routed to a handler; and what follows a request on the connection does not influence how that request is handled.", "quantifier": "all byte sequences of requests, all segmentations, all routers", "why_tests_cant": "All sequences and segmentations.", "anchors": ["puck/src/core/mod.rs:serve_router", "puck/src/request/mod.rs:Request::parse"]}
{"id": "C91", "title": "for_each calls the function once per request", "statement": "With Core::for_each, every connection that carries a well-formed request leads to exactly one call of the given function, with that request and the server's state; a connection that carries none is answered with an error and does not crash its process.", "quantifier": "all byte sequences, segmentations, functions and states", "why_tests_cant": "All inputs.", "anchors": ["puck/src/core/mod.rs:for_each"]}
{"id": "C92", "title": "Request bodies end where RFC 7230 says", "statement": "The body of a parsed request is the one RFC 7230 section 3.3.3 defines: the decoded chunks with Transfer-Encoding: chunked, the Content-Length bytes otherwise, nothing if there is neither; an invalid Content-Length is an error.", "quantifier": "all header lists, all bytes behind the head, all segmentations", "why_tests_cant": "All messages and segmentations.", "anchors": ["puck/src/request/mod.rs:Request::parse", "puck/src/body/mod.rs:Body"]}
{"id": "C93", "title": "The size of a request head is bounded", "statement": "There is a limit on the size of request heads, so a client cannot make the server buffer without bound before a request is rejected.", "quantifier": "all byte streams", "why_tests_cant": "Unboundedly large inputs.", "anchors": ["puck/src/request/mod.rs:Request::parse"]}
{"id": "C94", "title": "A forwarded message is the message received", "statement": "A request or response that is parsed and written again (as a proxy does) is the same message: same method, target, status, header fields and body, up to the order of fields and white space around values.", "quantifier": "all well-formed requests and responses, all segmentations, all hash-map orders", "why_tests_cant": "All messages.", "anchors": ["puck/src/request/mod.rs:Request::parse", "puck/src/request/mod.rs:Request::write", "puck/src/response/mod.rs:Response::parse", "puck/src/response/encoder.rs:write_tcp_stream"]}
{"id": "C95", "title": "What a request to the list server gets", "statement": "GET /submit gets the form; a POST to /submit with a body message=<text> in UTF-8 adds exactly <text> at the end of the list and gets the confirmation, any other UTF-8 body gets the 400 page; /read/<i32> gets the page with the items; everything else gets the 404 page. No other request changes the list, and after any sequence of connections the list holds the posted texts in order.", "quantifier": "all request bytes, segmentations, lists, transports that fail at any point, all sequences of connections", "why_tests_cant": "All requests, histories and failure points.", "anchors": ["examples/list/src/main.rs:main", "puck/src/core/mod.rs:serve_router", "puck/src/core/router/match_url.rs:does_match"]}
{"id": "C96", "title": "The text submitted with the form is the item added", "statement": "A browser that submits the form of the list example with a text adds that text to the list.", "quantifier": "all texts, all segmentations", "why_tests_cant": "All texts.", "anchors": ["examples/list/src/main.rs:main"]}
{"id": "C97", "title": "A browser message is read exactly as its JSON text says", "statement": "A text frame from the browser counts as a message exactly when it is a JSON text (RFC 8259) of an object with one string member listener and at most one member payload (absent, null, or an object with one string member value), or the array of those fields; the name and value used are the ones the text denotes, whatever blanks, escapes, extra members and member order it uses. The component goes on as if given the named handler's input for that value, and any other text has no effect, now or later.", "quantifier": "every text, component, listener table, message history before and after", "why_tests_cant": "All texts: escapes, surrogate pairs, nesting, duplicates; and all histories.", "anchors": ["puck_liveview/src/client/mod.rs:ClientMessage", "puck_liveview/src/component/mod.rs:main_loop"]}
{"id": "C98", "title": "Everything sent to the browser is a JSON list of instructions", "statement": "Every text a component process sends over the WebSocket is a JSON text that denotes an array with one object per instruction, in order, with the members el, ty and (where the instruction has one) payload, each once, whatever characters the page contains.", "quantifier": "every component, message history and changeset", "why_tests_cant": "All strings and all instructions.", "anchors": ["puck_liveview/src/dom/element/diff/changeset/instruction_serializer.rs:InstructionSerializer", "puck_liveview/src/component/mod.rs:perform_diff"]}
{"id": "C99", "title": "Updates touch only what changed", "statement": "The changeset between two pages without keys depends only on what differs: if only one subtree differs, it is the changeset of that subtree; whatever else changes, no operation is addressed to (or creates a child of) a node of a subtree that looks the same at the same place in both pages; a changed text is one setText operation.", "quantifier": "every pair of unkeyed pages, every path into them", "why_tests_cant": "All trees and all paths.", "anchors": ["puck_liveview/src/dom/element/diff/mod.rs:Element::diff", "puck_liveview/src/dom/element/diff/mod.rs:Element::diff_children"]}
{"id": "C100", "title": "Each instruction of a changeset does exactly one thing", "statement": "Applying one operation to a tree with distinct ids changes exactly one node, in the way its instruction says (for createTag the parent, for deleteEl the parent of the node named), and it panics exactly when there is no such node or an id is not a number; applying a changeset is applying its operations one after the other.", "quantifier": "every tree with distinct ids, every operation", "why_tests_cant": "All trees, all instructions, all positions.", "anchors": ["puck_liveview/src/dom/element/diff/changeset/apply.rs:Changeset::apply"]}
{"id": "C101", "title": "Each instruction does exactly one thing in the browser", "statement": "On a document with distinct ids each instruction the server sends changes exactly one place, in the way its name says (with attribute values cut at the first '+'); if there is no such place or a name is not accepted, an exception leaves the document as it was and abandons the rest of that message, but not what was already done; a text that is not JSON changes nothing.", "quantifier": "every document, every instruction, every message", "why_tests_cant": "All documents, all instructions, all positions.", "anchors": ["puck_liveview/client/index.js:ws.onmessage"]}
{"id": "C102", "title": "Interrupted reads do not disturb a WebSocket", "statement": "If the operating system interrupts reads while a frame arrives, the frame is delivered all the same and nothing of what follows is lost; an interruption between two frames loses nothing.", "quantifier": "every frame, every segmentation, every number and position of interruptions", "why_tests_cant": "All positions of interruptions in all frames and segmentations.", "anchors": ["puck/src/ws/frame.rs:Frame::parse", "puck/src/ws/websocket.rs:WebSocket::next"]}
{"id": "C103", "title": "The output of a WebSocket is exactly the conversation", "statement": "Whatever a client sends and in whatever order a program calls next and send, the bytes written decode into exactly these frames, in order: each message sent, a pong for each ping that next returned, one close frame when the end is first reported. A client whose frames puck can read is heard message by message, whatever the program sends in between.", "quantifier": "every stream of client bytes, every sequence of calls, every sequence of messages", "why_tests_cant": "All histories of calls and inputs.", "anchors": ["puck/src/ws/websocket.rs:WebSocket::next", "puck/src/ws/send.rs:send"]}
{"id": "C104", "title": "Control frames obey RFC 6455", "statement": "Control frames that are fragmented or longer than 125 bytes are refused, and all control frames written are unfragmented and at most 125 bytes long.", "quantifier": "every stream of client bytes, every sequence of calls", "why_tests_cant": "All histories of calls and inputs.", "anchors": ["puck/src/ws/message.rs:Message::next", "puck/src/ws/websocket.rs:WebSocket::next"]}
{"id": "C105", "title": "Requests are routed by their target", "statement": "Which routes accept a request with an origin-form target is decided by that target alone: the path that matchers see has the segments of the target, without query and fragment; the Host field does not change it.", "quantifier": "every method, target, header list, transport segmentation and pattern of matchers", "why_tests_cant": "All requests and all hosts.", "anchors": ["puck/src/request/mod.rs:Request::parse", "puck/src/core/router/match_url.rs:Match::does_match"]}
{"id": "C106", "title": "Paths are clean", "statement": "However a request is written on the wire, the path segments its handler sees consist of visible ASCII characters without slashes and are never '.' or '..', plain or percent-encoded. The request line puck writes for any http(s) URL is a single line of three words.", "quantifier": "every byte stream that parses as a request; every URL and every sequence of builder calls", "why_tests_cant": "All byte streams and URLs.", "anchors": ["puck/src/request/mod.rs:Request::parse", "puck/src/request/mod.rs:Request::write", "puck/src/request/builder.rs:RequestBuilder"]}
{"id": "C107", "title": "Text on a page is never read as markup", "statement": "For liveview pages built from ordinary HTML elements, whatever the texts, attribute values and listener names of the pages are (user input included), every element in the browser's document has a tag and attribute names that one of the pages has (or is a paragraph the browser inserts); nothing inside a text or a value becomes an element, an attribute or a script. This holds after every message of a session, whether or not the document is in sync with the pages.", "quantifier": "all pages, all sequences of re-renders, all texts and values, all messages of a component session, all browsers that follow the HTML Standard", "why_tests_cant": "Injection is a question about all strings and all histories of a page: a test shows that one payload is escaped, not that no payload ever becomes markup, and the renaming instruction re-parses serialised content, so the answer depends on escaping and parsing being inverse for every text.", "anchors": ["puck_liveview/client/index.js: setTagName, setText, setAttr, createTag", "puck_liveview/src/dom/element/diff/mod.rs: diff", "puck_liveview/src/html/mod.rs: into_element"]}
{"id": "C108", "title": "A body that breaks off is not passed off as a whole one", "statement": "If the connection fails before the body of a request or response is complete, reading the body (as bytes or text) and writing the message to another connection report an error, after passing on exactly what had arrived; writing a message reports success only if the whole body was read and every byte of head and body was written. A connection closed before the announced Content-Length is reached is noticed as well.", "quantifier": "all requests and responses, all bodies, all points at which the transport fails or ends, all segmentations, all buffer sizes, all write failures", "why_tests_cant": "The point of failure can be any byte and any read; a test that cuts a connection once does not show that no position, buffer size or interruption makes a truncated body look complete.", "anchors": ["puck/src/body/mod.rs: Read for Body, into_bytes, into_string", "puck/src/request/mod.rs: Request::write", "puck/src/response/encoder.rs: Encoder"]}
{"id": "C109", "title": "Blank lines before a request are ignored", "statement": "Empty lines received before the request line do not change what request is parsed (RFC 7230, 3.5 asks servers to ignore at least one).", "quantifier": "all requests, all numbers of empty lines, all segmentations", "why_tests_cant": "The head is looked for in the raw bytes before it is parsed, so an empty line can meet the end-of-head test in ways that depend on every combination of lines and segments.", "anchors": ["puck/src/request/mod.rs: Request::parse", "puck/src/core/mod.rs: serve_router"]}
{"id": "C110", "title": "An announced length cannot crash reading a body as text", "statement": "Reading the body of a request or response as text gives the text if the body is valid UTF-8 and an error otherwise, whatever length the message announces; a client that announces a huge Content-Length and sends little cannot make a handler (for instance the list example's) panic.", "quantifier": "all requests and responses, all announced lengths, all bodies, segmentations and buffer sizes, all allocation limits", "why_tests_cant": "The crash depends on the announced number and on how much memory can be allocated, not on the data received; tests use honest lengths.", "anchors": ["puck/src/body/mod.rs: Body::into_string", "examples/list/src/main.rs: POST /submit"]}
{"id": "C111", "title": "What a user has typed into a field", "statement": "Text typed into an input field of a live page is the user's: no message from the server, whatever it is, puts anything there or takes another field's text; typing changes nothing of what later messages from the server do to the document; while the pages keep the field, an update does not overwrite what was typed; a field nobody has typed into shows the value the page gives it. And (as a developer who renders a value expects) after an update the field shows the rendered value.", "quantifier": "all documents, fields, typed texts, histories of server messages and page sequences, all browsers' HTML parsers", "why_tests_cant": "The outcome depends on which fields were typed into before which updates, over unbounded histories; tests of the server never run a browser with a user.", "anchors": ["puck_liveview/client/index.js: onmessage, cloneNode, setAttr", "puck_liveview/src/dom/element/diff/mod.rs: Element::diff"]}
{"id": "C112", "title": "Every listener around the place of an event", "statement": "An event at an element of a live page reaches each listener for it on the element and on the elements around it, from the inside out; each makes the component process one input from the value of the element where the event happened, in that order. And (as a developer expects) one click on an element with one listener makes one input, and every listener the event reached is handled.", "quantifier": "all components, pages shown, elements, events, handler tables and environments", "why_tests_cant": "Bubbling is done by the browser over an arbitrarily nested page, and handling depends on what the updates made by the first texts change.", "anchors": ["puck_liveview/client/index.js: attachListener", "puck_liveview/src/component/mod.rs: Component main loop"]}
{"id": "C113", "title": "Chat: what the field shows at the click is what is sent", "statement": "In the chat example, whatever the delays on the connection and whatever arrives from other users in between: the messages sent on a user's behalf are exactly the texts the message field showed at the user's clicks on 'send message', each once and in order; the name registered is the one the name field showed at the first click of the first page's button; and when nothing is on the way the browser shows the process's page and its field shows what the process holds.", "quantifier": "all sessions: any interleaving of typing, clicking, reading of server messages, taking of browser texts and messages of other users, of any length; all texts", "why_tests_cant": "It ranges over all interleavings of a user, two message directions and other users.", "anchors": ["examples/chat/src/main.rs: Chat::update, Chat::render", "puck_liveview/client/index.js: onmessage", "puck_liveview/src/component/mod.rs"]}
{"id": "C114", "title": "Chat: typed here, shown there", "statement": "In the whole chat example (server, any number of users entering, joining, typing, clicking and leaving, with delays in both directions at each of them): a user who has joined and whose browser has read what it was sent sees the greeting with the name shown at the first click on the first page's button, and one row for each message: all that the user has sent since joining, in order, and, in the order the server took them, what the others have sent since, except what is still in the user's inbox. What somebody sent is what that person's message field showed at the clicks on 'send message', each once and in order, under that person's name; and nothing else is ever said.", "quantifier": "all rooms: any number of users and any interleaving of all their steps, of any length; all texts", "why_tests_cant": "It ranges over all interleavings of all users, the server and all message directions.", "anchors": ["examples/chat/src/main.rs: Chat::update, Chat::render, ChatServer", "puck_liveview/client/index.js: onmessage", "puck_liveview/src/component/mod.rs"]}
{"id": "C115", "title": "An event means what the page it happened on said", "statement": "A user acts on the page the browser shows, which may be older than the page the component has rendered by then. Whatever the component does with an event is what the handler of the page the event happened on asks for: an event is never carried out as something else. (In full this is false of a component whose pages use one listener name for different things: a second click made before the page has followed is carried out as what the newer page says. It holds, whatever the delays, if pages that use a listener name again use it for the same handler; then an event is done as meant or dropped; and if all pages have the same handlers, all events are done as meant, once each, in order. The chat meets the first condition in every session.)", "quantifier": "every component, every history of its process and every interleaving of the browser reading changesets, the user acting on the page shown, the events arriving and other messages arriving", "why_tests_cant": "depends on the relative delays of two directions of a connection; tests run the browser and the server in lock step", "anchors": ["puck_liveview/src/component/mod.rs: main_loop", "puck_liveview/src/dom/listener.rs: ListenerRef", "puck_liveview/client/index.js: onmessage (attachListener)", "examples/chat/src/main.rs: Chat::render"]}
{"id": "C116", "title": "Chat: a message names its author", "statement": "In the chat example the heading of a message (name and user id) tells who wrote it: when a message is given out, its user id belongs to the session whose user sent it and to no other, and its name is the one that session registered; and two messages with the same heading on somebody's page were written by the same user. (The last part is false: ids are used again when their user has left, and names can be taken by anyone; two messages with the same id are from the same session exactly if the first one's session has not left in between.)", "quantifier": "every history of the whole chat: any number of users entering, joining, typing, clicking and leaving, with delays in both directions at each of them", "why_tests_cant": "ids are recycled over histories of joins and leaves in any interleaving; a test sees only a few of them", "anchors": ["examples/chat/src/main.rs: UserIdCreator, ChatServerState::handle, LiveviewComponent::render, Drop for LiveviewComponent"]}
{"id": "C117", "title": "Updates stay in proportion to the pages", "statement": "The number of instructions sent to the browser is in proportion to the pages: drawing a page takes exactly one instruction per element, attribute, listener and text, and an update from one page to the next takes no more than the old page's size plus twice the new one's. (The second part holds if no two siblings of the new page share a key; if they may, no constant factor is enough.) The same holds of the JSON text that goes over the wire: at most 90 bytes for each of these things and 6 for each byte of text in them.", "quantifier": "every pair of trees of any size and shape, with any attributes, listeners, texts and keys", "why_tests_cant": "a bound over all pairs of trees, by induction over both; tests only see the sizes they try", "anchors": ["puck_liveview/src/dom/element/diff/mod.rs: Element::diff, create_from_scratch, diff_attributes, diff_listeners, diff_children, locate_child_by_key"]}
{"id": "C118", "title": "Using a liveview page does not leave it", "statement": "Whatever the user does on a liveview page (typing, clicking any element, pressing Enter in a field), the page and its session stay; in particular a listener for submit events can be used to hear about a submitted form. (False: the client script never prevents the browser's default, so submitting a form tells the component and leaves the page, and a submit listener is heard only when the page is left. Pages without forms and links are never left; the chat's are of that kind.)", "quantifier": "every document, every place in it and every user action; for the positive part every sequence of pages and updates of a session, and everything typed", "why_tests_cant": "no test drives a browser; the claim is over all documents, all places of a click and all histories of updates", "anchors": ["puck_liveview/client/index.js: attachListener", "puck_liveview/src/dom/listener.rs: Listener::Submit", "puck_liveview/src/html/mod.rs: into_element (Form, Input, A, Label)", "examples/chat/src/main.rs: render"]}
{"id": "C119", "title": "A request can be sent again", "statement": "Writing the same request a second time (after a first attempt that failed, or to a second server) sends the same request: the same head and the same body. (False: writing reads the body away. A second attempt sends the head, with its announced length, and only those bytes of the body that the first attempt has not read; it sends the whole request exactly if the first one was broken off within the head, or the body is empty.)", "quantifier": "every request, every body (strings and bodies still being received), every point at which the first attempt is broken off, every sequence of read sizes in both attempts", "why_tests_cant": "the loss depends on where the transport breaks off and on the sizes of the reads; a test fixes both", "anchors": ["puck/src/request/mod.rs: Request::write", "puck/src/body/mod.rs: impl Read for Body, Body::from_string, Body::from_reader"]}
{"id": "C120", "title": "An encoder can be used for several receivers", "statement": "Writing the response of one Encoder to several transports, one after the other, gives each of them the whole response. (False: writing reads the body away. Each receiver gets the head, with its announced length, and of the body only what the attempts before have not read; no byte of the body is written twice, and a byte that was read when a transport broke off is lost. A receiver gets the whole response exactly if there is no body or every attempt before was broken off within the head.)", "quantifier": "every response, every body (strings and bodies still being received), every number of attempts, every point at which each is broken off, every sequence of read sizes", "why_tests_cant": "the loss depends on where each transport breaks off and on the sizes of the reads; a test fixes them", "anchors": ["puck/src/response/encoder.rs: Encoder::write_tcp_stream", "puck/src/body/mod.rs: impl Read for Body"]}
{"id": "C121", "title": "Exactly the valid handshakes are accepted", "statement": "A request to upgrade is accepted if and only if it is an opening handshake as RFC 6455 4.2.1 demands it: a GET with a Host field, \"websocket\" among the protocols of its Upgrade fields, \"upgrade\" among the options of its Connection fields, a Sec-WebSocket-Key that encodes 16 bytes, and version 13. (It is not so: valid ones are refused, for instance with two protocols or two Connection fields, and invalid ones accepted; what counts is the last field spelled Upgrade, the last one spelled Connection, which need only contain the letters \"upgrade\", and that there is one spelled Sec-WebSocket-Key. Handshakes written as browsers write them are accepted. Neither the method nor the version nor the Origin matters, so pages of other sites can connect.)", "quantifier": "every request head (any method, target, number and order of header fields, any spelling and values), any segmentation of its bytes, any buffer sizes", "why_tests_cant": "ranges over all header lists; that nothing else counts is a statement about pairs of requests", "anchors": ["puck/src/ws/upgrade.rs: should_upgrade, perform_upgrade", "puck/src/core/mod.rs: Stream::upgrade"]}
{"id": "C122", "title": "Chat: the server keeps no more than its users", "statement": "Whatever users have come and gone, the chat server remembers the names and processes of exactly those who are registered now, and all the ids it keeps (those in use and those to be given out again) are no more than the largest number of users there ever were at once. So the ids that users see stay small: who has id n, there were more than n users at once at some time; and a new user gets an id no larger than that number, and that number itself only if as many users are registered now.", "quantifier": "every history of requests the server has answered: any number of users joining, renaming, sending and leaving in any order, also requests for ids nobody has", "why_tests_cant": "a bound on the state after unboundedly long histories, by the maximum over all their prefixes", "anchors": ["examples/chat/src/main.rs: UserIdCreator::get_id, release_id, ChatServerState, ProcessRequest<CoordinatorInput>::handle"]}
{"id": "C123", "title": "The client gets the response that was sent", "statement": "A client that reads responses by the rules of RFC 7230 (3.3.3, 3.4) and receives what Stream::respond wrote before the connection closed takes it for exactly the response sent: same status, reason, header fields and body, nothing left over behind it, for every method the request may have had, HEAD included. If the write fails after any number of bytes, the client notices that the response is incomplete.", "quantifier": "all responses (status, reason, headers, body), request methods, and numbers of bytes after which the connection breaks", "why_tests_cant": "Whether an incomplete response can be told from a complete one depends on every combination of status, fields, body and point of failure; a test sees a few complete ones.", "anchors": ["puck/src/response/encoder.rs: Encoder::write_tcp_stream", "puck/src/core/mod.rs: Stream::respond, Stream::upgrade", "puck/src/lib.rs: err_404, err_400", "puck_liveview/src/init.rs: index, js"]}
{"id": "C124", "title": "The server gets the requests that were sent", "statement": "A server that reads requests by the rules of RFC 7230 (3.3.3, 6.3) takes the bytes Request::write wrote on a connection, for one request or a series of them, for exactly the requests written: as many, in that order, each with its method, path, header fields and body.", "quantifier": "all requests (method, URL, headers, body) and all series of requests written on one connection", "why_tests_cant": "A body may be any bytes, also those of another request; whether a server takes it for a body depends on every combination of fields and contents.", "anchors": ["puck/src/request/mod.rs: Request::write, Request::build", "puck/src/request/builder.rs: RequestBuilder"]}
{"id": "C125", "title": "The list server behaves as if its connections came one after another", "statement": "However the connections of the list example run side by side (accepted at any time, each in its own process, their requests reaching the process with the list in any order), there is an order in which the same connections, served one after the other, leave the same list and get the same answers; a connection that has ended comes before every one accepted later. So an item whose POST has ended is on every page of items that is asked for afterwards.", "quantifier": "all numbers of connections, all bytes they send, all transports, all schedules of the processes", "why_tests_cant": "The number of schedules grows exponentially with the connections; a test sees the few its scheduler happens to take.", "anchors": ["examples/list/src/main.rs: main, List::handle", "puck/src/core/mod.rs: Core::serve_router"]}
{"id": "C126", "title": "Every connection to the list server is answered, whatever the others do", "statement": "Every accepted connection to the list example comes to its end (answered, or its own process has panicked) provided its own process and the process with the list get to run again and again; other connections, however many, cannot prevent it, even if their clients stall for ever or their processes crash. What it gets is right in the sense of C125.", "quantifier": "all infinite executions, all numbers of connections, all bytes they send, all fair schedules of the two processes concerned and arbitrary schedules of all others", "why_tests_cant": "Starvation and deadlock show only in infinite executions and under particular schedules.", "anchors": ["examples/list/src/main.rs: main, List::handle", "puck/src/core/mod.rs: Core::serve_router"]}
{"id": "C127", "title": "A WebSocket client pays for what it causes, and nothing else limits it", "statement": "The messages a WebSocket has handed to the program were each paid for by the client with at least their smallest encoding (2 bytes, 4 for the key if not empty, the longer length forms, the payload); what a WebSocket has written is at most what the program sent plus as many bytes as the client sent, so pongs and the close frame do not amplify. A message may be no longer than some limit set by puck.", "quantifier": "all byte streams, segmentations and interrupted or failing reads, all histories of next and send calls, all amounts the peer accepts, all message lengths", "why_tests_cant": "It is an accounting over whole histories of arbitrarily long streams; a test sees single messages.", "anchors": ["puck/src/ws/frame.rs: Frame::parse, Frame::format", "puck/src/ws/message.rs: Message::next", "puck/src/ws/websocket.rs: Iterator::next, WebSocket::send"]}
{"id": "C128", "title": "A route can be reached", "statement": "For every matcher a program builds from Match::new and at there is a request path it accepts, so that the route of that matcher can be taken; and the route built from fixed texts is taken when a browser follows the link to the page of these texts.", "quantifier": "all matchers (any number of segments, any texts in them), all requests in all segmentations, all crates url that implement the URL Standard", "why_tests_cant": "That a route is unreachable is a statement about every possible request; a test shows only that the requests it sends do not reach it.", "anchors": ["puck/src/core/router/match_url.rs: Match::new, Match::at, Match::does_match", "puck/src/request/mod.rs: Request::parse"]}
{"id": "C129", "title": "When the order of the routes matters, and which routes are never taken", "statement": "Routes built from Match::new and at of which no two overlap (same length, and at every position a text both accept) may be added to a Router in any order: every request is handled the same. If two routes overlap, there are requests that are handled by whichever of them was added first. A route that a request can reach at all is never taken exactly if a single earlier route covers it position by position; several earlier routes together never hide one that none of them hides alone.", "quantifier": "all lists of routes with any patterns, all permutations, all requests in all segmentations, all crates url that implement the URL Standard", "why_tests_cant": "It compares all orders of all lists of routes over all requests, and says of a route that none of the infinitely many requests reaches it, or that one does.", "anchors": ["puck/src/core/router/mod.rs: Router::route, Router::respond", "puck/src/core/router/match_url.rs: Match::new, Match::at, Match::does_match"]}
