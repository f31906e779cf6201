# Formal model of puck-rs/puck in Rocq (Coq 8.16.1)

Deliverables: `properties.jsonl` (the claims, in English), `rocq/theories` (model, specifications, proofs),
`MANIFEST.json` (claim -> theorems, status), `seeded/LOG.jsonl` (wrong programs the theorems were tested
against), this file.

## 1. Approach

The code is modelled function by function as total, executable Gallina functions over `list`, `N`, `option`
and records. Panics are explicit outcomes (`Panic`, or `None` where a function has no other failure). Loops
are structural or fuelled; wherever there is fuel, a theorem says it never runs out. What the program cannot
control is a universally quantified parameter:

* the network: a transport is an arbitrary list of outcomes of future `read` calls (data chunks of any size,
  zero-length reads, errors, interrupted reads), and a writer accepts an arbitrary number of bytes and then fails;
* the sizes of the read requests std makes (`read_to_end`, `io::copy`): an arbitrary function;
* the iteration order of hash maps: an arbitrary permutation, or, where a map is modelled by the list of its
  entries in iteration order, an arbitrary list;
* `usize`: an arbitrary pointer width;
* httparse and url: arbitrary functions, with the assumption needed spelled out in the theorem (for httparse
  "reads well-formed heads", which the concrete parser of `Httparse.v` is proved to satisfy);
* SHA-1: an arbitrary function with 20-byte results (`Sha1.v` has the real one);
* user code: components, matchers, handlers, reader implementations are arbitrary functions;
* scheduling: transition systems with all interleavings.

Where the unchanged code violates a property, the faithful model refutes it: the theorem named `..._refuted`
proves that the property, in the form stated, is false (with a concrete witness), and `..._partial` is the
strongest positive statement proved, with the exact side condition under which the property holds. Such claims
have the status `partial`.

### Files

| file | content |
|---|---|
| `Base.v` `HMap.v` `Num.v` `Utf8.v` `Io.v` `IoProofs.v` | bytes and strings, hash maps, integer parsing/printing, UTF-8, transport reads and the std adaptors (`BufReader`, `read_exact`, `take`, `read_until`) |
| `WsModel.v` | `puck/src/ws/{frame,message,send,websocket}.rs` |
| `Sha1.v` `UpgradeModel.v` | SHA-1 and Base64; `puck/src/ws/upgrade.rs`, `Stream::upgrade` of `core/mod.rs` |
| `HttpModel.v` | `puck/src/{body,request,response}/*`, `puck/src/lib.rs` |
| `Httparse.v` | a concrete head parser (the crate httparse), only to show that hypotheses are satisfiable |
| `RouterModel.v` | `puck/src/core/mod.rs`, `core/router/*` |
| `DomModel.v` `HtmlModel.v` `RenderModel.v` | `puck_liveview/src/dom/element/**` (Element, diff, Changeset::apply, render), `html/*` |
| `JsonSpec.v` | specification: JSON texts, what a browser message says, how an instruction is written |
| `Json.v` `ClientModel.v` | JSON text; the instruction serializer and `client/index.js` |
| `InnerHtml.v` | specification: what `innerHTML` gives and does, after the HTML Standard |
| `ComponentModel.v` | `component/mod.rs`, `client/mod.rs`: message decoding, the loop, the three processes |
| `SharedModel.v` | two processes writing to one socket (`component/mod.rs`, `websocket.rs` make_copy) |
| `HandlesModel.v` | several handles of one WebSocket (`websocket.rs` make_copy, next, close) |
| `Fair.v` | infinite executions, fairness, "eventually" |
| `ServeModel.v` | `puck_liveview/src/init.rs`, the routes of `examples/chat`, the URLs index.js uses |
| `ChatModel.v` `ListModel.v` | `examples/chat`, `examples/list` |
| `UserModel.v` | a user at the browser: fields that hold typed text, bubbling of events, over `client/index.js` |
| `*Spec.v` | small specifications that do not use the model's helpers: RFC 6455 frames (`WsSpec`), HTTP grammar (`HttpSpec`), tree views and safe edits (`DomSpec`), what a browser should show (`ClientSpec`), component histories (`ComponentSpec`), an HTML tokenizer (`RenderSpec`), chat histories (`ChatSpec`), growing pages (`UserSpec`), a chat user's session with delays in both directions (`DeskSpec`), the whole chat with its users (`RoomSpec`), events on pages that are no longer current (`StaleSpec`), the path of an http(s) URL (`UrlSpec`) |
| `*Lemmas.v` `*Proofs*.v` `WsBridge.v` `WsLoss.v` | lemmas |
| `Prop*.v` | the property theorems, named after the claim (`C01_...`), each followed by `Print Assumptions` and a non-vacuity `Example` |

## 2. Trusted base

* Coq 8.16.1's kernel (including its `vm_compute` conversion, used for evaluating concrete examples).
* `Print Assumptions` prints "Closed under the global context" for **every** theorem of `Prop*.v`: no axiom is
  used, neither of our own nor of the standard library. (A whole-library `coqchk` report lists primitive
  declarations of library files that happen to be loaded, e.g. ssreflect's `Under_rel`; no theorem depends on them.)
* Only Coq's standard library is imported. No functors, module types, `Declare Module`, section-less variables,
  plugins, disabled checks, `Admitted`.
* The model is hand-written from the source text; that it says the same as the Rust and JavaScript is trusted.
  Each definition cites the lines it models, and says where it simplifies. `Conformance.v` replays the
  assertions of the repository's own test-suite on the model.
* Semantics assumed of what is not in /repo: Rust's std (as written in `Io.v`, `Num.v`, `HMap.v`, `Utf8.v`),
  serde_json / JSON.parse (`Json.v`), the DOM operations used by index.js (`ClientModel.v`), lunatic (processes do
  not share memory, mailboxes are FIFO queues, a panic stays in its process; a request to the chat server is
  answered by one atomic step of the server).

## 3. What is modelled, and what is not

Modelled (file:lines are in the comments): all of `puck/src/ws`, `puck/src/body`, `puck/src/request`,
`puck/src/response`, `puck/src/core`, `puck/src/lib.rs`; in `puck_liveview`: `dom/element` (Element, diff,
Changeset, serializer, apply, render), `dom/listener`, `dom/event`, `html`, `component`, `client`, `init`,
`client/index.js`; `examples/chat` and `examples/list` (handlers and processes).

Not modelled:

* the lunatic VM, TCP, TLS, timing, memory exhaustion other than a single allocation being too large;
* the internals of httparse, url, serde_json, malvolio, sha1, base64 (see the parameters above);
* `dom/element/orchestrator.rs` (an older copy of the component loop; not part of the crate: no `mod` declares it),
  the `fuzzing` features, `Debug`/logging, test modules;
* the browser's HTML parser (`innerHTML`, used when an element is renamed): a function parameter of `ClientModel.Browser`. `InnerHtml.v`
  writes out the HTML Standard's serialiser, and its tokenizer and tree construction for the markup that serialiser produces from
  ordinary elements; theorems that need it take as hypothesis that the browser agrees where that parser has an answer (`standard`), or
  that tree construction makes elements only from start tags, and `p` from stray end tags (`frugal`). Both are shown satisfiable;
* the HTML text the list example prints: only which page it is and which items it contains;
* malvolio nodes are their variant, attributes and text, which is all `into_element` looks at.

Simplifications: `Mime` keeps what is printed; its values are handled as bytes where the code has characters (`MimeChars` has the code
as written, on characters and with its escaping iterator, and C41_characters proves that the bytes are the same); children that malvolio nodes hold themselves are left out (the code
never looks at them); a failing write of a component's update is ignored as in the code (mod.rs:204), the first
one panics (mod.rs:113); JSON numbers are kept as text; serde_json's treatment of ignored fields is that of a full
parse.

## 4. Per property: what is modelled and how it is proved

WebSocket frames (`WsModel`, `WsSpec`, `PropWs`)

* C01, C02: the bytes `send` writes, against an RFC 6455 decoder; case split on the three length forms. C02 is false at 65535.
* C03-C09, C14: `Frame::parse` over an arbitrary transport, with `BufReader` (8 KiB), `read`, `read_exact`, `take().read_to_end()`; the general forms of C04, C07, C08, C09, C14 are false (short reads, 32-bit `usize`, dropped buffer, mask of empty frames left unread, huge allocations); the partial theorems have the exact condition. C08 and C09 also say exactly which bytes are lost (an invariant on the reader and the segment that holds the last byte of the frame).
* C10-C13, C15: `Message::next`; induction over fragments. UTF-8 validity is "is the encoding of a list of scalar values". C12 and C15 are false.
* C16-C20: `WebSocket` as a state machine; induction over call histories, for both handles of `make_copy`. C19 and C20 are false.
* C21: writers with an arbitrary failure budget.
* C88 (`HandlesModel`, `PropHandles`): any number of copies of a socket; induction over call histories. False: a copy keeps its own state.
* C80: two processes writing to the same socket; every interleaving of their write calls (section 5).

Handshake (`UpgradeModel`, `PropUpgrade`): C22-C24, C69. Base64 is specified by its decoder. C121 (`PropHandshake`): a valid opening handshake is
RFC 6455 4.2.1 over the header fields as they stand on their lines; which requests are accepted follows from C23 and C27.

HTTP (`HttpModel`, `HttpSpec`, `PropHttp`): C25-C43. Heads are specified by the HTTP/1.1 grammar; writers are
byte functions; round trips by induction over headers; bodies by induction over read histories; builders by
induction over call sequences, against "the last call wins". C32 is false (the query is dropped); `C32_exactly` says which URLs
survive: those the Host field and the path parse back to.

C89-C94 (`FramingSpec`, `PropHttp2`): body replacement over all call sequences; several requests per connection;
`for_each`; RFC 7230 body framing (a relation between fields, bytes, content and rest); head size; forwarding
(parse, then write), stated on the wire.

C108 (`PropBody`): bodies over failing transports, by induction over the reads of `io::copy`. C109 (`PropBlank`): empty lines before a
request, from the bytes; takes httparse's documented treatment of them as a hypothesis. C110 (`PropText`): `into_string` allocates the announced
length first; the largest possible allocation is a parameter (`max_string`). Memory exhausted by data actually received, and the
overflow of the byte counters after 2^32 bytes, are not modelled.

Routing (`RouterModel`, `PropRouter`): C44-C48, C70.

Live view DOM (`DomModel`, `HtmlModel`, `DomSpec`, `PropDom`): C49-C56. Trees are rose trees with decimal ids;
induction over trees with a lifting lemma (an operation on a subtree acts the same inside the whole tree if its id
does not occur earlier in document order). `safe`: the id conditions under which a positional diff is right; `fits`:
a purely structural condition on re-renders that implies it.

C53, C54 exactly, C99, C100 (`DomKeyed`, `DomLocal`, `DomApply`, `PropDom2`): what keyed diffs really do (old order kept, insertions
panic), when diffing panics (a relation walking both trees), changesets touch only what changed (`at_path`, `put_at`), and the
meaning of each instruction as a relation (`effect`) with "exactly one node changes" (`edit_at`), equivalent to `apply` on trees
with distinct ids.

Where the wanted property is refuted, an exact theorem says what happens instead, for all inputs: C02, C07, C14, C15, C20
(`PropWs2`), C69 (`PropUpgrade2`, `UpgradeLoss`), C29, C30, C33, C36, C89, C94 (`PropHttp3`), C53, C54 (`PropDom2`), C57, C75 (`PropBrowser`).

Wire and browser (`Json`, `ClientModel`, `ClientSpec`, `PropClient`): C57-C59, C71. Exact forms and C101 (`BrowserSpec`,
`BrowserProofs`, `PropBrowser`): C57-C59, C63, C72, C75 for attribute values that do contain `+` (the document is that of the
page whose values are cut), and the meaning of each instruction in the browser as a relation (`browser_effect`) that changes
one place of the document (`node_edit`), equivalent to the script on documents with distinct ids. C71 exactly (`IdProofs`).
Renaming an element with content (`InnerHtml`, `InnerHtmlProofs`): serialising and re-parsing gives the nodes back (`html_copy`, by
induction over nodes through tokens). C107 (`PropMarkup`): every instruction keeps "all tags and attribute names come from a page"
invariant; texts are escaped, so they become character tokens only.

Interrupted reads of WebSocket frames (`WsInterrupt`, `PropWs3`): C102, by a simulation between the transport with and without
the interruptions.

C19, C24, C37, C80, C92 exactly (`PropExact`): for all inputs, when a property that does not hold in general fails.
C51 exactly (`GrowProofs`, `PropGrow`): the paths to the renumbered node and to its namesake on the left are followed through the changeset
(`way`); renumbering hits the one on the left, later operations touch larger ids only.
C51 for all re-renders (`ExactSpec`, `ExactRun`, `ExactSkel`, `ExactMark`, `ExactStuck`, `PropLevel`): `C51_exactly` says which pairs of pages come out right, in both
directions. Sufficient: induction over the side-by-side walk, with the set of ids each edit searches for. Necessary for names and
listeners: a node is marked with a key (which no operation changes) and followed until it gets its new id and after it. Necessary for ids:
up to the first place where the pages stop being level the shape of the page is known (`sk`: ids only); from there on a pushed node keeps
its old id, and a created node whose id is on the way to it is never addressed, so it stays empty.
C59 exactly (`CarrySpec`, `CarryProofs`, `CarryRun`, `CarryMain`, `PropCarry`): for two renders whose changeset is right (C51) and in which
no element with content is renamed, `C59_exactly` says exactly when the browser ends up with the new page: one induction over the
side-by-side walk gives, for a document showing the old page with or without its listeners (`mask`), either the run and what it shows,
or the instruction that throws (`jfails`). Renaming elements with content depends on how markup is parsed and is left to
`C59_browser_updates_partial`.
C103, C104 (`PropWs4`): the whole output of a socket against a relation (`conversation`) between calls, answers and frames; induction
over call histories; which control frames are sent, exactly.

C63, exactly (`SessionProofs.v`, `PropSession.v`): `apply` respects `view` for every operation, so C51_exactly and C59_exactly chain over a
session: `C63_client_exactly` (a replaying client holds the current page after every update iff each re-render is `level`/`keeps`) and
`C63_browser_exactly` (given right changesets and `renamed_empty`, the browser shows the current page after every message iff every step `carries`).

C105, C106 (`UrlSpec`, `UrlProofs`, `PropUrl`): theorems that take as hypothesis that the url crate implements the path rules of the
URL Standard for http(s) (`url_standard`; written out in `UrlSpec`, satisfiable: `std_env`); induction over segments.

JSON (`JsonSpec`, `JsonProofs`, `PropJson`): the grammar of RFC 8259 as an inductive relation between texts and values,
independent of the parser; the parser accepts exactly that relation (soundness by induction on the recursion, completeness
by mutual induction on the derivation). C97 (messages of the browser, decoding and reaction; the vocabulary `asks`,
`noise` of the other component and chat theorems uses the grammar, not the parser) and C98 (texts sent).

Component (`ComponentModel`, `ComponentSpec`, `PropComponent`): C60-C63, C72-C74: the loop against a relation that
has no snapshot; the three processes of `manage` as a transition system; end to end composition (bytes in, page out).

Liveness (`Fair`, `PropLive`): C86 (everything sent to a component is handled) and C87 (chat messages are shown), over all
infinite fair executions; a measure (position in the mailbox) that other processes cannot increase.

C81 (`PropDom`): flat pages, corollary of C50.

Serving (`ServeModel`, `PropServe`): C82-C85; exact bytes, routing of whole connections, mount paths, and the composition of
HTTP, handshake, WebSocket, component, wire format and browser for a chat session.

Rendering, examples: C64 (`PropRender`; `PropRender2` has `C64_exactly`, which pages are read back as they are), C65-C67, C75-C77, C79 (`PropChat`), C68, C78 (`PropList`).
C122 (`PropCrowd`): the most users there ever were at once, over the prefixes of a server history; by induction the id generator's head is such a number (a new id is made up only when every id below is in use). For the whole chat the same is stated over the pages that were open in the worlds a run went through (`run_of`).
C123 (`AnswerSpec`, `PropAnswer`): the client is RFC 7230's: `received` says what a recipient makes of the bytes of a connection that was then closed (whole with this body and these left-over bytes, cut off, or garbled). For heads without Transfer-Encoding it is shown equivalent to a case distinction that always has one answer (the decomposition into head and rest is unique because a head ends at the first empty line); then `encode`'s text is put in, also for a connection that fails after n bytes. Heads have at most 20 fields, as everywhere.
C124 (`AnswerSpec`, `PropAsked`): the server is RFC 7230's: `taken` reads the requests one behind the other, each body ending where `framed` (C92) says. Heads and frames are unique, so `taken` has one answer; induction over the series. HEAD requests (C33), queries (C32) and Transfer-Encoding fields are outside the hypotheses; empty lines between requests are not allowed by `taken`.

C125 (`ListRace`, `PropListRace`): every connection is a process that has begun, waits for the list's reply, has it, or has ended; the process with the list handles any of the waiting requests; connections are accepted at any time. The order is that in which the requests are handled (a process that asks nothing: when it ends). Invariant: serving the connections so ordered one after the other (`list_server`, C95) gives the list and the answers. Writes of different processes go to different connections, so they need no interleaving; a process that never gets to run stays where it is.
C126 (`ListRace`, `PropListLive`): the same processes with the list's mailbox as a queue; infinite executions and weak fairness (`Fair`) for the connection's own process and the process with the list only. Ranking: how far the connection has got, and while it waits the number of requests in front of its own. Every such execution is one of C125's.

C127 (`PropWs5`): bytes available to a reader never grow, whatever a read returns; a parsed frame consumed at least its smallest encoding (`cost`), and costs of fragments add up to at least the cost of the whole; induction over the calls of a history (`calls`, as in C103). Amplification: on-the-wire size of a pong against the cost of its ping (two bytes short at 65535, C02). `C127_copies` carries the bound over to any number of copies of the socket (`HandlesModel`). Unlimited length: a symbolic frame of any length the allocator serves.
C128 (`PropReach`): the parsed URL of a request comes from the standard's path of the target (C105), whose segments contain no byte the standard encodes and are no dot segments; a matcher with any other text, or without segments, therefore accepts none of them. Conversely an explicit path (the texts, `0` for parameters) is accepted. For links: browsers send `encode_segment t`, which is `t` exactly if nothing needs encoding.
C129 (`PropOrder`): overlap and covering of patterns are specified position by position. Any order: by C44 the route taken is the first that accepts, and two accepting routes overlap. Order matters: a common text per position. Never taken: covering implies acceptance; conversely one path tells all earlier routes from this one at once (parameters filled with more `a`s or `0`s than any text of the earlier routes has bytes; `0..0` is an i32 literal of any length), so routes can only be hidden by a single other.

The list server from bytes to bytes (`ListModel`, `FormSpec`, `PropList2`): C95 (every method, path, body, transport budget;
histories of connections by induction) and C96 (the browser's form encoding as a separate specification).

The user at the browser (`UserModel`, a refinement of the documents of `ClientModel` proved equal to it after erasing what was typed):
input elements keep a typed text (value and dirty value flag of the HTML Standard; copied by cloneNode, not touched by
setAttribute, absent in new elements); events bubble. Typing is into `input` elements of the type text. Not modelled: default actions
of events (a submit button inside a `form` leaves the page; the chat's buttons are in no form), focus and selection.
C111, C112 (`PropUser`): erasure simulation, a measure on what is typed, and induction over pages that keep their elements (`grown`).
C113 (`PropDesk`): an invariant over the sessions of `DeskSpec.sits` relating what was sent, taken, read and shown.

C114 (`PropRoom`): rooms (`RoomSpec.room_reachable`) run the world of `ChatModel.world_step` and a desk of `DeskSpec` per session together. The invariants (`RoomProofs`–`RoomProofs3`) project a room to a reachable world (C77, C79) and each seat to a session of C113, and tie the server's record, tagged with the process that made each request, to both. Process handles are never used again; steps in which the server or a process panics are left out (C77 says when they cannot happen).

C115 (`PropStale`): `StaleSpec.talks` lets a process and its browser run apart: texts are sent while the page shown is that of an earlier state, and received later; each is recorded with what it meant on the page shown (`means`, by `asks` of `ComponentSpec`) and what it made the process do. Proved by an invariant over `talks`: both meanings are those of pages of the session. The unconditional claim is refuted by a to-do list and a double click; the chat's sessions meet the condition (`C115_chat`). The order of the texts in each direction is kept (C04, C103).

C116 (`PropAuthor`): on the rooms of C114. Invariant over the server's record: a message is given out only for a process registered under its id and name, an id is removed only by the process that has it, and given out only when nobody has it. From it, by induction over the record between two messages with the same id: either one session has had the id all along, or the first removed it and the second registered. That headings tell authors apart is refuted by a session in which somebody takes the name of a user who has left.

C117 (`PropSize`): `weight` counts elements, attributes, listeners and texts. First paint by induction over the tree; updates by induction over the new tree, the keyed branch by charging each matched old child once (its key occurs once among the new siblings), each deleted one to itself and each inserted one to its new element. The refutation is a family: one old child with n attributes, n new ones with its key, n*n instructions. `PropSize2` gives the same in bytes of the JSON text on the wire (`C117_first_paint_bytes`, `C117_update_bytes_partial`): at most 90 bytes per thing (an instruction's fixed part, 20 digits for each of two ids) and 6 per byte of text (`\\u00xx` escapes), the ids being 64-bit words; an instruction's cost is bounded first, then the inductions of `PropSize` are repeated with costs for counts.

C118 (`LeaveModel`, `PropLeave`): the browser's own part of a click or of Enter (HTML Standard: activation target, labels, submit buttons, form owner, implicit submission), on the documents of `UserModel`. Simplified: every link with `href` counts as leaving, fields never fail validation, reset buttons and check boxes do nothing. That pages without forms and links stay is by the invariant of C107 on tags and attribute names; that a submit listener is heard only on leaving is by cases over what a gesture can send. `UserModel`'s own actions (C111-C113) leave the defaults out. `LeaveSpec` says separately, by relations, which events a click or Enter sets off and when the page is left; C118_click_exactly and C118_enter_exactly (`PropLeave2`) prove that the model does exactly that.

C119 (`SendModel`, `PropSend`): `Request::write` with the request it leaves behind (`request_send`; forgetting that, it is `request_write`: `send_is_write`). An invariant over `io::copy`'s loop: what the body still holds, against what was read and written (`copy_holds`), from a lemma on single reads (`body_step`).
C120 (`SendModel`, `PropEncoder`): `Encoder::write_tcp_stream` with the response it leaves behind, over any series of transports (`served`: what each gets); forgetting it, it is `encode` (`encoder_is_encode`). The same invariant as C119.

## 5. Findings (places where the code does not do what a user would expect)

Each is proved by a `_refuted` theorem.

* C02 a 65535-byte message uses the 8-byte length form. C04 a read boundary inside the first two bytes or the key of
  a frame fails it. C07/C14 with a 32-bit `usize` a length above 2^32 is truncated; huge lengths abort the process.
  C08 bytes of the next frame in the same segment are lost (new `BufReader` per frame). C09 the masking key of an empty frame
  is left in the stream. C12 a ping between fragments destroys the message. C15 reserved bits are ignored.
  C19 messages can be sent after the close frame. C20 end of file is reported as a client error for ever.
* C24 header names are compared case-sensitively in the handshake. C69 a frame sent together with the upgrade request is lost.
* C121 handshakes are accepted whatever their method, version, key or Origin (cross-site WebSocket hijacking), with "upgrade" anywhere in the
  Connection field; valid ones with two protocols or two Connection fields are refused.
* C30 duplicated Host/Content-Length in different spelling is resolved by hash-map order. C32 the query string is
  dropped when writing a request. C33 HEAD is written as `HEAD /`. C36 a response's body length is read from Content-Type.
  C37 CR LF in header values injects headers. C38 malformed response heads are accepted.
* C89 replace_body leaves the old Content-Length. C90 only the first request of a connection is served. C91 for_each crashes on
  anything but a well-formed request. C92 chunked bodies are not decoded, a request without Content-Length swallows what
  follows, an invalid Content-Length is ignored. C93 heads are not limited. C94 of repeated fields only the last is kept.
* C119 writing a request empties it: a second attempt sends the head with its Content-Length, but not the bytes the first has read.
* C120 the same for a response and an `Encoder`: the second receiver gets the head with its Content-Length and no body.
* C123 no response of the framework carries a Content-Length, so one that breaks off behind its head (half of the live view's script) is taken for
  whole; a HEAD request that `Stream::upgrade` refuses is answered with a body.
* C124 `Request::write` announces no length: a server takes the body for further requests (request smuggling, if the body is somebody else's text).
* C96 the list example stores form-encoded text undecoded.
* C48 unmatched requests are never answered; a missing Host panics the process; `Router::run` ignores cut-off requests.
* C51 re-renders that grow in the middle misplace nodes (no such re-render ever comes out right: `C51_pushed_back_refuted`); which do: `C51_exactly`; C53/C54 keyed children are wrong, a single new keyed child panics.
  C56 headings lose children, select becomes div, br loses attributes, text nodes panic.
* C57/C75 `+` in values is cut by the browser. C59 index.js ignores removeText, setText destroys children,
  removeListeners drops listeners of descendants, setTagName drops listeners (`C59_exactly`: when this does harm). C71 an attribute `id` breaks the page.
  C72 events other than click, submit, input are never sent (`C72_exactly`: which events reach a handler).
* C73 a client that vanishes without a close frame leaves its component (in the chat: its user) registered for ever.
* C64 `render` quotes attribute names and escapes nothing.
* C111 the value a component renders into a field is not shown once the user has typed into it (index.js sets the attribute, not the
  value). C112 one click on an element with one listener can make several inputs (bubbling), and not all of them are handled if the
  first takes away the second's handler.
* C118 index.js never prevents the browser's default: submitting a form leaves the page, so listeners for submit events are heard only
  when the session ends. C115 a click on a page that is no longer current can mean something else to the component. C116 user ids and
  names are given out again, so headings do not tell authors apart. C117 siblings that share a key make updates quadratic.
* C68 the list example's "last n" returns everything. C78 `/read/-5` and non-UTF-8 bodies panic the handler. C110 so does a huge Content-Length: `into_string` allocates it first.
* C80 an answer to a ping can land between the header and the payload of an update: the client reads garbage.
* C88 a handle that did not see the close itself still sends and closes again: two close frames on one connection.
* C102 an interrupted read between a frame's header and its masking key loses the header.
* C104 fragmented and oversized control frames are accepted, and answered with oversized pongs.
* C105 a Host field with `/`, `?` or `#` in it, or an empty one, changes the path the request is routed by.
* C127 the length of a message has no limit but the allocator; a ping of 65535 bytes is answered with two bytes more than it cost.
* C128 `Match::new()` without segments, and every matcher with a text that has a space, a non-ASCII character or another one the URL Standard encodes, accepts no request at all: texts are compared with the encoded segments.
* C84 mounted as documented at a path without trailing slash, the page requests its script and socket from other paths.
* C79 chat participants can see messages in different orders (`C79_order`: what order each is sure of).
