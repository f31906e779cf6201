{
 "claims": [
  {
   "property": "C01",
   "status": "proved",
   "theorems": [
    "C01_sent_message_decodes"
   ],
   "note": "Payloads shorter than 2^63 bytes (the frame format's own limit)."
  },
  {
   "property": "C02",
   "status": "partial",
   "theorems": [
    "C02_minimal_length_refuted",
    "C02_minimal_length_partial",
    "C02_form_exactly"
   ],
   "note": "Refuted for length 65535 (64-bit form is used); proved for every other length."
  },
  {
   "property": "C03",
   "status": "proved",
   "theorems": [
    "C03_client_frame_parsed",
    "C03_single_segment"
   ],
   "note": "Every masked client frame, delivered with no read boundary inside the two header bytes or the masking key."
  },
  {
   "property": "C04",
   "status": "partial",
   "theorems": [
    "C04_segmentation_refuted",
    "C04_segmentation_partial"
   ],
   "note": "Refuted: a read boundary inside the first two bytes (or the key) makes the frame fail; the partial theorem says exactly when parsing succeeds."
  },
  {
   "property": "C05",
   "status": "proved",
   "theorems": [
    "C05_unmasked_rejected",
    "C05_unmasked_never_delivered"
   ],
   "note": "Unmasked frames never reach the application."
  },
  {
   "property": "C06",
   "status": "proved",
   "theorems": [
    "C06_truncated_error",
    "C06_truncated_never_delivered"
   ],
   "note": "Proved for every declared length, every shorter prefix, every splitting (each frame delivered with no read boundary inside its first two bytes or masking key; total payload allocatable)."
  },
  {
   "property": "C07",
   "status": "partial",
   "theorems": [
    "C07_declared_length_refuted",
    "C07_declared_length_partial",
    "C07_frame_exactly"
   ],
   "note": "Refuted by concrete frames; partial theorem covers the rules that are enforced."
  },
  {
   "property": "C08",
   "status": "partial",
   "theorems": [
    "C08_no_bytes_lost_refuted",
    "C08_no_bytes_lost_partial",
    "C08_lost_bytes_partial",
    "C08_coalesced_partial",
    "C08_only_first_partial"
   ],
   "note": "Refuted (the frame reader's private buffer is dropped). Partial theorems: no loss when no segment has bytes of two frames; with a shared segment of at most 8192 bytes exactly the rest of that segment is lost; for any input fewer than 8192 bytes are lost and they directly follow the frame. Missing: the exact loss for segments above 8192 bytes."
  },
  {
   "property": "C09",
   "status": "partial",
   "theorems": [
    "C09_empty_frame_refuted",
    "C09_empty_frame_partial",
    "C09_key_left_over_partial"
   ],
   "note": "Refuted (the key of an empty frame is never read). Partial: the exact point where the next call starts, for every segmentation with segments up to 8192 bytes."
  },
  {
   "property": "C10",
   "status": "proved",
   "theorems": [
    "C10_fragments_reassembled"
   ],
   "note": "Proved for every number of fragments, every payload, every masking key per fragment (each frame delivered with no read boundary inside its first two bytes or masking key; total payload allocatable)."
  },
  {
   "property": "C11",
   "status": "proved",
   "theorems": [
    "C11_text_is_utf8",
    "C11_invalid_text_rejected"
   ],
   "note": "Proved for every payload and fragmentation (each frame delivered with no read boundary inside its first two bytes or masking key; total payload allocatable)."
  },
  {
   "property": "C12",
   "status": "partial",
   "theorems": [
    "C12_interleaved_control_refuted",
    "C12_interleaved_control_partial",
    "C12_interleaving_always_fails"
   ],
   "note": "Refuted: a control frame between fragments always fails."
  },
  {
   "property": "C13",
   "status": "proved",
   "theorems": [
    "C13_close_reported",
    "C13_close_only_if_sent"
   ],
   "note": "Proved for every number of fragments before the close frame (each frame delivered with no read boundary inside its first two bytes or masking key; total payload allocatable)."
  },
  {
   "property": "C14",
   "status": "partial",
   "theorems": [
    "C14_no_crash_refuted",
    "C14_no_crash_partial",
    "C14_crash_exactly"
   ],
   "note": "Refuted; partial theorem."
  },
  {
   "property": "C15",
   "status": "partial",
   "theorems": [
    "C15_reserved_refuted",
    "C15_reserved_partial",
    "C15_reserved_bits_ignored"
   ],
   "note": "Refuted; partial theorem."
  },
  {
   "property": "C16",
   "status": "proved",
   "theorems": [
    "C16_closed_stays_closed",
    "C16_closed_is_silent"
   ],
   "note": "Proved for every later history of calls and every remaining input."
  },
  {
   "property": "C17",
   "status": "proved",
   "theorems": [
    "C17_one_close_frame"
   ],
   "note": "Proved for every input stream and number of calls."
  },
  {
   "property": "C18",
   "status": "proved",
   "theorems": [
    "C18_ping_pong"
   ],
   "note": "Proved for every payload, every input."
  },
  {
   "property": "C19",
   "status": "partial",
   "theorems": [
    "C19_exactly",
    "C19_send_after_close_refuted",
    "C19_send_after_close_partial"
   ],
   "note": "Refuted: messages can be sent after the close frame. Exact form (C19_exactly): data follows our close frame exactly when the program sends data after next reported the end; so it holds for programs that stop sending (partial)."
  },
  {
   "property": "C20",
   "status": "partial",
   "theorems": [
    "C20_eof_refuted",
    "C20_eof_partial",
    "C20_never_told"
   ],
   "note": "Refuted: after end of file next keeps returning ClientError; an explicit close frame is reported."
  },
  {
   "property": "C21",
   "status": "proved",
   "theorems": [
    "C21_after_handshake",
    "C21_failed_write_prefix",
    "C21_series_prefix"
   ],
   "note": "Proved for every frame and every failure point."
  },
  {
   "property": "C22",
   "status": "proved",
   "theorems": [
    "C22_accept_value",
    "C22_value_sent"
   ],
   "note": "For every digest function with 20-byte output; SHA-1 itself is implemented and checked against published vectors."
  },
  {
   "property": "C23",
   "status": "proved",
   "theorems": [
    "C23_one_response",
    "C23_client_reads"
   ],
   "note": "Exact bytes of the single response, including partial writes (which crash the process)."
  },
  {
   "property": "C24",
   "status": "partial",
   "theorems": [
    "C24_small_letters_refuted",
    "C24_case_refuted",
    "C24_case_partial"
   ],
   "note": "Refuted: header names are compared case-sensitively; every request for a WebSocket is refused when its names are written in small letters (C24_small_letters_refuted). Partial: the outcome is a function of the three canonically spelled headers."
  },
  {
   "property": "C25",
   "status": "proved",
   "theorems": [
    "C25_head_exact",
    "C25_segmentation_free",
    "C25_response_head_exact",
    "C25_response_segmentation_free"
   ],
   "note": "Any splitting, interrupted reads included. Head parser and URL parser are arbitrary."
  },
  {
   "property": "C26",
   "status": "proved",
   "theorems": [
    "C26_incomplete_is_none",
    "C26_transport_error",
    "C26_response_incomplete_is_none",
    "C26_response_transport_error",
    "C26_always_terminates"
   ],
   "note": "Proved for every stream."
  },
  {
   "property": "C27",
   "status": "proved",
   "theorems": [
    "C27_headers_faithful",
    "C27_invalid_utf8_rejected"
   ],
   "note": "For heads in the HTTP/1.1 grammar with at most 20 headers; the head parser is any parser satisfying reads_requests (a concrete one is proved to)."
  },
  {
   "property": "C28",
   "status": "proved",
   "theorems": [
    "C28_url_from_target",
    "C28_missing_host",
    "C28_parsed_has_host",
    "C28_letter_case"
   ],
   "note": "Proved for every head."
  },
  {
   "property": "C29",
   "status": "proved",
   "theorems": [
    "C29_content_length",
    "C29_no_content_length",
    "C29_body_exactly"
   ],
   "note": "Proved for every length, stream, splitting and sequence of read buffer sizes."
  },
  {
   "property": "C30",
   "status": "partial",
   "theorems": [
    "C30_framing_refuted",
    "C30_framing_partial",
    "C30_host_by_chance",
    "C30_length_by_chance"
   ],
   "note": "Refuted: Host / Content-Length in two spellings are resolved by hash-map order. Partial: one spelling each suffices for the framing to be a function of the bytes."
  },
  {
   "property": "C31",
   "status": "proved",
   "theorems": [
    "C31_request_round_trip"
   ],
   "note": "Proved for every well-formed request with at most 20 headers, every header iteration order, every splitting."
  },
  {
   "property": "C32",
   "status": "partial",
   "theorems": [
    "C32_query_refuted",
    "C32_query_partial",
    "C32_exactly"
   ],
   "note": "Refuted: two URLs with equal paths are written identically. Partial: URLs without a query."
  },
  {
   "property": "C33",
   "status": "partial",
   "theorems": [
    "C33_method_refuted",
    "C33_method_partial",
    "C33_method_exactly",
    "C33_parsed_exactly"
   ],
   "note": "Refuted for HEAD. Partial: GET, POST and other method tokens."
  },
  {
   "property": "C34",
   "status": "proved",
   "theorems": [
    "C34_encoder_exact",
    "C34_encoder_deterministic",
    "C34_failed_write_prefix"
   ],
   "note": "Proved for every response and iteration order."
  },
  {
   "property": "C35",
   "status": "proved",
   "theorems": [
    "C35_response_round_trip"
   ],
   "note": "Proved for every well-formed response with at most 20 headers, every order, every splitting."
  },
  {
   "property": "C36",
   "status": "partial",
   "theorems": [
    "C36_response_length_refuted",
    "C36_response_length_partial",
    "C36_body_exactly"
   ],
   "note": "Refuted: response parsing reads the length from Content-Type. Partial: the body is everything to the end of the connection."
  },
  {
   "property": "C37",
   "status": "partial",
   "theorems": [
    "C37_exactly",
    "C37_injected_line_refuted",
    "C37_injection_refuted",
    "C37_injection_partial"
   ],
   "note": "Refuted: any line put into a value between CR LFs is a line of the output (C37_injected_line_refuted). Exact form (C37_exactly): one line per header iff no name, value or reason contains a line feed."
  },
  {
   "property": "C38",
   "status": "partial",
   "theorems": [
    "C38_malformed_refuted",
    "C38_malformed_partial",
    "C38_errors_partial"
   ],
   "note": "Refuted: httparse's error is ignored. Partial: a parsed response has a status code and reason set by the head parser."
  },
  {
   "property": "C39",
   "status": "proved",
   "theorems": [
    "C39_string_body",
    "C39_string_body_reads"
   ],
   "note": "Proved for every string and every read schedule."
  },
  {
   "property": "C40",
   "status": "proved",
   "theorems": [
    "C40_no_overdelivery",
    "C40_prefix"
   ],
   "note": "Proved for every reader, declared length and read history."
  },
  {
   "property": "C41",
   "status": "proved",
   "theorems": [
    "C41_mime_unambiguous",
    "C41_escape_iterator",
    "C41_characters"
   ],
   "note": "Proved for every parameter value. The byte model is C41_characters-equivalent to the code on characters with its escaping iterator (MimeChars); C41_escape_iterator: what the iterator gives and announces."
  },
  {
   "property": "C42",
   "status": "proved",
   "theorems": [
    "C42_request_builder"
   ],
   "note": "Proved for every sequence of builder calls."
  },
  {
   "property": "C43",
   "status": "proved",
   "theorems": [
    "C43_response_builder"
   ],
   "note": "Proved for every sequence of builder calls."
  },
  {
   "property": "C44",
   "status": "proved",
   "theorems": [
    "C44_first_match_once",
    "C44_on_connections"
   ],
   "note": "respond over a router built with Router::route: exactly the handler of the first accepting route, with the request and state given."
  },
  {
   "property": "C45",
   "status": "proved",
   "theorems": [
    "C45_ship_router",
    "C45_ship_router_exact"
   ],
   "note": "as_ints then from_ints. The hypothesis image_ok says both processes run the same program image: what is found at the address of a function behaves like it."
  },
  {
   "property": "C46",
   "status": "proved",
   "theorems": [
    "C46_positional"
   ],
   "note": "Iff characterisation, Url::path_segments being the model environment's url_segments."
  },
  {
   "property": "C47",
   "status": "proved",
   "theorems": [
    "C47_integer_segments"
   ],
   "note": "Iff characterisation of i32::from_str as modelled (optional + or -, at least one digit, in range)."
  },
  {
   "property": "C48",
   "status": "partial",
   "theorems": [
    "C48_answered_refuted",
    "C48_answered_partial",
    "C48_unanswered_exactly_partial"
   ],
   "note": "Refuted: an unmatched request is never answered, a request without Host makes the process panic, and Router::run ignores a cut-off request. The _partial theorem covers matched requests and cut-off heads under serve_router."
  },
  {
   "property": "C49",
   "status": "proved",
   "theorems": [
    "C49_apply_diff"
   ],
   "note": "For every id-safe pair (DomSpec.safe); also when applied to any copy that looks like the old tree."
  },
  {
   "property": "C50",
   "status": "proved",
   "theorems": [
    "C50_rerender_in_sync",
    "C50_rendered_pages"
   ],
   "note": "For fitting numbered trees, and for two renders through into_element."
  },
  {
   "property": "C51",
   "status": "partial",
   "theorems": [
    "C51_all_rerenders_refuted",
    "C51_rerenders_partial",
    "C51_pushed_back_refuted",
    "C51_growing_pages",
    "C51_exactly"
   ],
   "note": "False as stated: a re-render that adds an element before one that stays never comes out right (C51_pushed_back_refuted, for all such pages). C51_exactly decides every pair of pages: a re-render comes out right iff no element gets a larger id, no element that is not bare is created under the old id of an element it is in, and elements that get another id keep name and listeners (or lose all listeners)."
  },
  {
   "property": "C52",
   "status": "proved",
   "theorems": [
    "C52_unchanged"
   ],
   "note": "Trees without keys."
  },
  {
   "property": "C53",
   "status": "partial",
   "theorems": [
    "C53_keyed_children_refuted",
    "C53_keyed_delete_and_update_partial",
    "C53_old_order_kept",
    "C53_new_child_panics"
   ],
   "note": "Refuted: reorder gives an empty changeset, append cannot be applied, single new child panics. Partial: deletions and in-place updates. Exact: kept children stay in the old order (C53_old_order_kept), any new child makes apply panic (C53_new_child_panics)."
  },
  {
   "property": "C54",
   "status": "partial",
   "theorems": [
    "C54_diff_total_refuted",
    "C54_diff_total_partial",
    "C54_rendered_diff_total_partial",
    "C54_panics_exactly",
    "C54_deletion_never_panics"
   ],
   "note": "Refuted: a single new keyed child panics. Partial: trees without a single keyed child. Exact: C54_panics_exactly characterises all pairs of trees on which diff panics."
  },
  {
   "property": "C55",
   "status": "proved",
   "theorems": [
    "C55_ids"
   ],
   "note": "Ids in document order are exactly head, head+1, ..."
  },
  {
   "property": "C56",
   "status": "partial",
   "theorems": [
    "C56_faithful_refuted",
    "C56_faithful_partial",
    "C56_exactly_supported_partial",
    "C56_built_in_order"
   ],
   "note": "Refuted (headings drop children, select becomes div, br drops attributes and listeners, text panics). Partial: supported nodes."
  },
  {
   "property": "C57",
   "status": "partial",
   "theorems": [
    "C57_arrives_exactly",
    "C57_value_cut",
    "C57_wire_framing",
    "C57_wire_refuted",
    "C57_wire_partial",
    "C57_diff_wire_safe_partial"
   ],
   "note": "Partial: C57_wire_refuted shows the claim false for values containing '+' (the browser splits the payload on every '+' and keeps two pieces). Exactly: C57_arrives_exactly (the arguments arrive iff the glued parts have no '+'), C57_value_cut (of a value the part before the first '+' arrives); framing for every changeset."
  },
  {
   "property": "C58",
   "status": "proved",
   "theorems": [
    "C58_first_paint_any_value",
    "C58_displays_is_shows_cut",
    "C58_usual_names",
    "C58_first_paint",
    "C58_first_paint_rendered"
   ],
   "note": "Proved for every tree with unique ids and clean names: the first message executes without exception and the document shows the tree; if attribute values contain '+', the tree with those values cut (C58_first_paint_any_value, C58_displays_is_shows_cut). C58_usual_names says which names are certainly clean."
  },
  {
   "property": "C59",
   "status": "partial",
   "theorems": [
    "C59_updates_any_value_partial",
    "C59_exactly",
    "C59_exactly_shown",
    "C59_browser_updates_refuted",
    "C59_browser_updates_partial",
    "C59_browser_rerenders_partial"
   ],
   "note": "Partial: C59_browser_updates_refuted gives five id-safe edits after which the browser shows something else (removeText unhandled, setText drops children, removeListeners clones away listeners of descendants, setTagName drops listeners, '+' truncation). C59_exactly: for two renders whose changeset is right (C51) and in which only elements without content are renamed, the browser executes the whole message and shows the new page iff every element that stays can be carried over (iff: no kept listeners on renamed elements, no text put into elements with children, no shown text taken away, no kept listeners below an element whose listeners change). For renamed elements with content: C59_browser_updates_partial (browser_pair is sufficient; the browser is any one that agrees with the HTML Standard's serialiser and parser as far as InnerHtml.v formalises them, hypothesis `standard`, satisfied by plain_browser)."
  },
  {
   "property": "C60",
   "status": "proved",
   "theorems": [
    "C60_snapshot_current",
    "C60_one_message_per_update"
   ],
   "note": "iff characterisation of main_loop by the snapshot-free relation lives"
  },
  {
   "property": "C61",
   "status": "proved",
   "theorems": [
    "C61_stops_on_close",
    "C61_stops_only_on_close",
    "C61_noise_ignored",
    "C61_never_panics"
   ],
   "note": "close, noise and panic-freedom theorems; the first send failing (mod.rs:113 unwrap) is a panic in the model (flag sent)"
  },
  {
   "property": "C62",
   "status": "proved",
   "theorems": [
    "C62_identity_first",
    "C62_no_unreachable"
   ],
   "note": "three-process transition system with queues; every reachable state"
  },
  {
   "property": "C63",
   "status": "proved",
   "theorems": [
    "C63_browser_in_sync_any_value",
    "C63_client_in_sync",
    "C63_browser_in_sync",
    "C63_component_in_sync",
    "C63_client_exactly",
    "C63_browser_exactly"
   ],
   "note": "for a tree-applying client and for the browser model, also with '+' in values; C63_client_exactly / C63_browser_exactly characterise exactly which sessions are followed at all times (pages rendered through into_element; browser: right changesets, renamed_empty)"
  },
  {
   "property": "C64",
   "status": "partial",
   "theorems": [
    "C64_render_refuted",
    "C64_render_partial",
    "C64_exactly"
   ],
   "note": "Refuted: Element::render writes attribute keys inside quotes, so a conforming HTML tokenizer misreads every attribute, and nothing is escaped. Partial: pages without attributes and without markup characters are read back exactly; C64_exactly shows these are the only ones (among pages with proper tag names). (render is not used by the live view itself.)"
  },
  {
   "property": "C65",
   "status": "proved",
   "theorems": [
    "C65_fresh_ids",
    "C65_registration_works",
    "C65_one_user_per_id"
   ],
   "note": "For every history of requests and answers of the server."
  },
  {
   "property": "C66",
   "status": "proved",
   "theorems": [
    "C66_message_reaches_everyone",
    "C66_unregistered_sender_crashes"
   ],
   "note": "For every history; a message under an unregistered id panics the server (C66_unregistered_sender_crashes), which C77 shows not to happen in the example."
  },
  {
   "property": "C67",
   "status": "proved",
   "theorems": [
    "C67_chat_in_sync"
   ],
   "note": "For every history of mailbox messages, as long as node numbers fit a machine word."
  },
  {
   "property": "C68",
   "status": "partial",
   "theorems": [
    "C68_last_n_refuted",
    "C68_last_n_partial",
    "C68_items_in_order"
   ],
   "note": "Refuted: LastN(n) returns all items whenever there are more than n (get(0..)). Partial: right when there are at most n; the items are kept in order over every history."
  },
  {
   "property": "C69",
   "status": "partial",
   "theorems": [
    "C69_early_frame_refuted",
    "C69_early_frame_partial",
    "C69_early_bytes_lost"
   ],
   "note": "Refuted: frames in the same segment as the head stay in the request's BufReader. Partial: frames in later segments are received."
  },
  {
   "property": "C70",
   "status": "proved",
   "theorems": [
    "C70_connections_independent"
   ],
   "note": "The accept loop is modelled as one process per accepted connection with a clone of the state; a panic in a process does not leave it (lunatic isolation, trusted)."
  },
  {
   "property": "C71",
   "status": "partial",
   "theorems": [
    "C71_id_attributes_exactly",
    "C71_id_attribute_refuted",
    "C71_no_id_attribute_partial"
   ],
   "note": "Partial: refuted for an attribute named id. C71_id_attributes_exactly: if the values of id attributes are not ids of other elements of the page, the first message paints the page iff each repeats its element's own id; without id attributes C71_no_id_attribute_partial."
  },
  {
   "property": "C72",
   "status": "partial",
   "theorems": [
    "C72_events_arrive_any_value",
    "C72_events_arrive",
    "C72_events_handled",
    "C72_other_events_refuted",
    "C72_exactly"
   ],
   "note": "proved for click, submit and input, on every page the browser displays; refuted for other events (index.js sends nothing for them); C72_exactly says which events reach which handlers"
  },
  {
   "property": "C73",
   "status": "partial",
   "theorems": [
    "C73_vanished_client_refuted",
    "C73_close_frame_partial",
    "C73_gone_before_the_first_page_partial"
   ],
   "note": "refuted: end of stream without close frame leaves the component looping for ever (and the reader spinning); proved for clients that send a close frame"
  },
  {
   "property": "C74",
   "status": "proved",
   "theorems": [
    "C74_end_to_end"
   ],
   "note": "composition of the WebSocket, component, wire and browser models; per-segment hypothesis of piece_ok (no segment spans two frames, see C08)"
  },
  {
   "property": "C75",
   "status": "partial",
   "theorems": [
    "C75_chat_any_text",
    "C75_chat_in_browser_partial",
    "C75_plus_typed_refuted"
   ],
   "note": "Partial only because the wanted claim is refuted when '+' is typed; C75_chat_any_text is exact: whatever is typed, the page in the browser is the component's page with the field's value cut at the first '+', it is the very page iff no '+' is in the field, and all listeners work."
  },
  {
   "property": "C76",
   "status": "proved",
   "theorems": [
    "C76_chat_never_panics",
    "C76_other_inputs_crash"
   ],
   "note": "Assumes what C77 proves of the environment: only chat messages arrive from other processes and the server answers per request."
  },
  {
   "property": "C77",
   "status": "proved",
   "theorems": [
    "C77_no_crash",
    "C77_users_are_sessions"
   ],
   "note": "Up to 2^64-1 simultaneous sessions (id overflow). Requests are atomic steps."
  },
  {
   "property": "C78",
   "status": "partial",
   "theorems": [
    "C78_panics_exactly_partial",
    "C78_never_panics_refuted"
   ],
   "note": "Refuted (C78_never_panics_refuted). C78_panics_exactly_partial says exactly which requests panic: a negative number of items, a posted body that is not UTF-8, a post announcing more bytes than can be allocated."
  },
  {
   "property": "C79",
   "status": "partial",
   "theorems": [
    "C79_same_messages_partial",
    "C79_order",
    "C79_same_order_refuted"
   ],
   "note": "Every message since joining exactly once (same_messages), own messages in the order sent and all others' in the server's order (C79_order); refuted: two users who write at the same time see the two messages in different orders. The exact order statement C79_order says what is left of the claim."
  },
  {
   "property": "C80",
   "status": "partial",
   "theorems": [
    "C80_exactly",
    "C80_frames_arrive_whole_refuted",
    "C80_whole_frames_partial",
    "C80_quiet_reader_partial"
   ],
   "note": "Refuted: header and payload are separate write_all calls, so an answer can land inside an update. Exact form (C80_exactly): with a non-empty update all schedules are right exactly when the reader has nothing to answer. Partial: if frames are written whole (any interleaving of frames)."
  },
  {
   "property": "C81",
   "status": "proved",
   "theorems": [
    "C81_flat_pages",
    "C81_bare_nodes"
   ],
   "note": "Depth at most two; deeper pages are C50/C51."
  },
  {
   "property": "C82",
   "status": "proved",
   "theorems": [
    "C82_pages_exact",
    "C82_pages_readable",
    "C82_page_loads_script"
   ],
   "note": "The script's text is a parameter (include_str!)."
  },
  {
   "property": "C83",
   "status": "proved",
   "theorems": [
    "C83_chat_routes",
    "C83_unread_requests"
   ],
   "note": "One connection; the accept loop is C70. URL parsing is the environment's."
  },
  {
   "property": "C84",
   "status": "partial",
   "theorems": [
    "C84_mount_refuted",
    "C84_mount_partial"
   ],
   "note": "Refuted for paths without a trailing slash (./js is resolved against the parent, the socket path is the page's path plus ws). Partial: iff the path ends in a slash."
  },
  {
   "property": "C85",
   "status": "proved",
   "theorems": [
    "C85_chat_session"
   ],
   "note": "Composition of C27/C23/C44/C46, C74 and C75; conditions as in C69, C75 (frames after the handshake in later segments, no + typed)."
  },
  {
   "property": "C86",
   "status": "proved",
   "theorems": [
    "C86_everything_is_taken"
   ],
   "note": "Weak fairness in the form: again and again the process makes a step or has none to make (Fair.v). What the component then does with the messages: C60-C63."
  },
  {
   "property": "C87",
   "status": "proved",
   "theorems": [
    "C87_messages_are_shown"
   ],
   "note": "The sessions of ChatModel's world with weak fairness of the component in question only; uses C79's counting of messages."
  },
  {
   "property": "C88",
   "status": "partial",
   "theorems": [
    "C88_one_close_frame_refuted",
    "C88_copy_not_told_refuted",
    "C88_closed_handle_partial",
    "C88_copy_of_closed_partial",
    "C88_close_frames_partial"
   ],
   "note": "False as stated: a copy has its own flag (refuted twice). Proved: a handle that has reported the end stays closed and leaves the socket alone whatever the others do, copies of it are closed, and there is at most one close frame per handle."
  },
  {
   "property": "C89",
   "status": "partial",
   "theorems": [
    "C89_bodies_in_order",
    "C89_response_bodies_in_order",
    "C89_content_type",
    "C89_response_content_type",
    "C89_new_body_refuted",
    "C89_new_body_partial",
    "C89_stale_length"
   ],
   "note": "Bodies come out once and in order, Content-Type follows the body (all call sequences). Refuted: 'the receiver gets the new body' (a stale Content-Length cuts it off; a Content-Type in another spelling stays). Partial: it does for messages without Content-Length."
  },
  {
   "property": "C90",
   "status": "partial",
   "theorems": [
    "C90_pipelining_refuted",
    "C90_first_partial"
   ],
   "note": "Refuted: at most one request per connection is served. Partial: the first request is handled the same whatever follows it."
  },
  {
   "property": "C91",
   "status": "partial",
   "theorems": [
    "C91_for_each_refuted",
    "C91_for_each_partial",
    "C91_exactly"
   ],
   "note": "Refuted: a connection without a well-formed request crashes the process (todo!). C91_for_each_partial: one call per well-formed request. C91_exactly: of the connections that carry a request head, exactly those with UTF-8 fields and a Host field that together with the target makes a URL lead to the one call, all others crash."
  },
  {
   "property": "C92",
   "status": "partial",
   "theorems": [
    "C92_exactly",
    "C92_framing_refuted",
    "C92_framing_partial"
   ],
   "note": "Refuted: chunked bodies are not decoded, without Content-Length the next request is taken for the body, an invalid Content-Length is ignored. Exact form (C92_exactly): the body read is the RFC's iff there is no Transfer-Encoding and there is a Content-Length or nothing follows."
  },
  {
   "property": "C93",
   "status": "partial",
   "theorems": [
    "C93_head_size_refuted",
    "C93_head_fields_partial"
   ],
   "note": "Refuted: heads of any size are accepted. Partial: the number of header entries is bounded by the room given to httparse (20)."
  },
  {
   "property": "C94",
   "status": "partial",
   "theorems": [
    "C94_forward_refuted",
    "C94_forward_partial",
    "C94_forward_response_partial",
    "C94_forward_exactly",
    "C94_forward_response_exactly"
   ],
   "note": "Refuted: of several fields with the same name only the last survives. Partial: with distinct names, no query and a body delimited as declared, the message written is the message read."
  },
  {
   "property": "C95",
   "status": "proved",
   "theorems": [
    "C95_list_routes",
    "C95_same_answers",
    "C95_unread_requests",
    "C95_only_posts_change",
    "C95_list_history"
   ],
   "note": "Complete: from request bytes to answer bytes and the new list, for every method, path, body and transport budget; malvolio's HTML is a parameter."
  },
  {
   "property": "C96",
   "status": "partial",
   "theorems": [
    "C96_submitted_text_partial",
    "C96_submitted_text_refuted"
   ],
   "note": "Refuted: the form-encoded text is stored undecoded (\"two eggs\" becomes \"two+eggs\"). Partial: the item is the encoded text, and equals the text exactly if it has only letters, digits and *-._"
  },
  {
   "property": "C97",
   "status": "proved",
   "theorems": [
    "C97_messages_exact",
    "C97_unambiguous",
    "C97_acts_on_what_it_says"
   ],
   "note": "Decoding and reaction proved against a grammar of JSON texts. Simplification (in ComponentModel.v): serde_json skips values of unknown members without checking surrogate escapes and nesting in them; the model and the grammar check them."
  },
  {
   "property": "C98",
   "status": "proved",
   "theorems": [
    "C98_changesets_are_json",
    "C98_server_sends_json"
   ],
   "note": "All texts of all histories; the texts are related to the page changes in C60 (updates)."
  },
  {
   "property": "C99",
   "status": "proved",
   "theorems": [
    "C99_only_the_changed_subtree",
    "C99_unchanged_parts_untouched",
    "C99_one_text_one_operation"
   ],
   "note": "Proved for all unkeyed pages (what into_element produces), every path."
  },
  {
   "property": "C100",
   "status": "proved",
   "theorems": [
    "C100_one_instruction",
    "C100_instruction_panics",
    "C100_in_order"
   ],
   "note": "Proved, both directions, for trees with distinct ids."
  },
  {
   "property": "C101",
   "status": "proved",
   "theorems": [
    "C101_one_instruction",
    "C101_names",
    "C101_exception",
    "C101_in_order",
    "C101_not_json"
   ],
   "note": "Proved: an instruction does exactly what browser_effect says or throws; the accepted names are XML names (C101_names); messages are instructions in order; exceptions abandon the rest; texts that are not JSON are ignored."
  },
  {
   "property": "C102",
   "status": "partial",
   "theorems": [
    "C102_inside_a_frame_partial",
    "C102_between_frames",
    "C102_before_the_key_refuted"
   ],
   "note": "Partial: an interruption exactly between header and masking key loses the header, for every frame (C102_before_the_key_refuted). Proved: interruptions anywhere else inside a frame are retried (if key and length are in one segment), interruptions between frames give one spurious error and lose nothing."
  },
  {
   "property": "C103",
   "status": "proved",
   "theorems": [
    "C103_transcript",
    "C103_messages_heard"
   ],
   "note": "Exact, for every history of calls on a reliable transport (C21 covers failing ones); an inductive relation between calls, their results and the frames written."
  },
  {
   "property": "C104",
   "status": "partial",
   "theorems": [
    "C104_sent_control_frames_exactly",
    "C104_invalid_pings_answered",
    "C104_control_frames_refuted"
   ],
   "note": "Refuted: a ping in fragments or of any length is accepted and answered with a pong just as long (C104_invalid_pings_answered, for all such pings). Exact: the control frames written are valid iff all pings received and sent are short."
  },
  {
   "property": "C105",
   "status": "partial",
   "theorems": [
    "C105_target_decides_partial",
    "C105_ordinary_targets",
    "C105_segments_in_host_refuted",
    "C105_query_in_host",
    "C105_empty_host"
   ],
   "note": "Relative to the URL Standard's path parsing (UrlSpec), assumed of the url crate. A Host field with / ? or # in it, or an empty one, changes the routed path: C105_segments_in_host_refuted, C105_query_in_host, C105_empty_host say how, for every such request."
  },
  {
   "property": "C106",
   "status": "proved",
   "theorems": [
    "C106_no_dot_segments",
    "C106_request_line"
   ],
   "note": "Relative to the URL Standard's path parsing (UrlSpec), assumed of the url crate."
  },
  {
   "property": "C107",
   "status": "partial",
   "theorems": [
    "C107_text_is_not_markup_partial",
    "C107_html_layer",
    "C107_component_sessions",
    "C107_raw_text_refuted"
   ],
   "note": "Partial: with elements whose text is serialised raw (style, script, ...) renaming turns text into elements (C107_raw_text_refuted, in every browser that follows the Standard). Proved for pages of the elements listed in InnerHtml.kind_of (which covers all pages the html layer can build: C107_html_layer) and all component sessions, for browsers whose tree construction makes elements only from start tags (hypothesis `frugal`, satisfied by careful_browser)."
  },
  {
   "property": "C108",
   "status": "partial",
   "theorems": [
    "C108_written_whole",
    "C108_request_broken_off",
    "C108_response_broken_off",
    "C108_closed_early_refuted"
   ],
   "note": "Partial: transport errors are always reported (C108_request_broken_off, C108_response_broken_off) and writing succeeds exactly when the whole body was read and written (C108_written_whole); but a connection closed early is not noticed: C108_closed_early_refuted shows, for every such request, that the short body is returned and forwarded as complete."
  },
  {
   "property": "C109",
   "status": "partial",
   "theorems": [
    "C109_one_blank_line",
    "C109_two_blank_lines_refuted"
   ],
   "note": "Partial: one empty line is ignored; after two, for every request, parsing fails with MissingMethod and the process serving the connection panics (C109_two_blank_lines_refuted). Assumes what httparse documents of empty lines (skips_blank_lines; met by Httparse.v)."
  },
  {
   "property": "C110",
   "status": "partial",
   "theorems": [
    "C110_text_partial",
    "C110_announced_length_refuted"
   ],
   "note": "Refuted: every request whose Content-Length exceeds what can be allocated panics when read as text, whatever body arrives, and the list server's process dies without an answer (C110_announced_length_refuted). C110_text_partial: all other messages, for all read sizes and limits, are read as text exactly if their bytes are UTF-8, and never panic."
  },
  {
   "property": "C111",
   "status": "partial",
   "theorems": [
    "C111_typing_changes_nothing_else",
    "C111_typed_by_the_user",
    "C111_typed_text_stays",
    "C111_untouched_fields",
    "C111_rendered_value_shown_refuted",
    "C111_typing_exactly"
   ],
   "note": "Partial: C111_rendered_value_shown_refuted: for all values and typed texts, a field that was typed into does not show the value an update renders. Proved: typing puts the text into that field and changes nothing anywhere else (C111_typing_exactly), typed text only comes from the user, typing changes nothing of what messages do (all documents and message histories), it stays while the pages keep their elements in place (grown), untouched fields show the rendered value (cut at the first plus sign, C58)."
  },
  {
   "property": "C112",
   "status": "partial",
   "theorems": [
    "C112_every_listener_around",
    "C112_all_handled",
    "C112_one_click_one_input_refuted",
    "C112_every_listener_handled_refuted"
   ],
   "note": "Partial: one click can make several inputs (C112_one_click_one_input_refuted), and a listener reached by the event is not handled if an earlier update of the same event removes its handler (C112_every_listener_handled_refuted). Proved: which texts an event sends, for all pages; all are handled in order while the handlers stay (C112_all_handled)."
  },
  {
   "property": "C113",
   "status": "proved",
   "theorems": [
    "C113_sent_as_shown",
    "C113_at_rest"
   ],
   "note": "Proved for all sessions of DeskSpec.sits, for browsers that follow the Standard in innerHTML (InnerHtml.standard, used only for renaming). Messages from other processes to the chat component are chat messages and the server answers as it does (ordinary, established in C65-C67)."
  },
  {
   "property": "C114",
   "status": "proved",
   "theorems": [
    "C114_said_as_shown",
    "C114_typed_here_shown_there"
   ],
   "note": "Composes C77, C79 and C113 over all interleavings. The browser's HTML parser ranges over all that meet InnerHtml.standard; connections do not lose texts (C73, C103 treat what the transport does)."
  },
  {
   "property": "C115",
   "status": "partial",
   "theorems": [
    "C115_never_misread_partial",
    "C115_all_as_meant_partial",
    "C115_chat",
    "C115_events_mean_what_the_page_said_refuted"
   ],
   "note": "False in full: with a to-do list whose button always has the same listener name, two clicks on one page tick off two different items (refutation). Proved, whatever the delays, for sessions whose pages use a listener name always for the same handler (never carried out as something else), for sessions whose pages all have the same handlers (all as meant, once each, in order), and for every session of the chat."
  },
  {
   "property": "C116",
   "status": "partial",
   "theorems": [
    "C116_named_when_said_partial",
    "C116_same_id_partial",
    "C116_rows_name_their_authors_refuted"
   ],
   "note": "Proved: when a message is given out its id and name are those of the one session registered under that id, which is the sender's (C116_named_when_said_partial); two messages with the same id are from one session, or the first session left and the second joined in between (C116_same_id_partial). Refuted: equal headings mean equal authors (C116_rows_name_their_authors_refuted: a name and id taken over from a user who left)."
  },
  {
   "property": "C117",
   "status": "partial",
   "theorems": [
    "C117_first_paint_size",
    "C117_update_size_partial",
    "C117_update_size_refuted",
    "C117_first_paint_bytes",
    "C117_update_bytes_partial"
   ],
   "note": "C117_first_paint_size is the full first part. C117_update_size_partial assumes that no two siblings of the new tree share a key; C117_update_size_refuted shows that without it no linear bound holds (every new child with the key is compared with the same old child, and all its attributes removed again each time)."
  },
  {
   "property": "C118",
   "status": "partial",
   "theorems": [
    "C118_submit_leaves",
    "C118_stays_partial",
    "C118_chat",
    "C118_form_refuted",
    "C118_buttons_leave",
    "C118_enter_elsewhere",
    "C118_click_exactly",
    "C118_enter_exactly"
   ],
   "note": "C118_form_refuted: submitting a form leaves the page. C118_click_exactly and C118_enter_exactly: for every document, what is sent and whether the page is left are exactly as the relations of LeaveSpec (from the HTML Standard) say. C118_submit_leaves: for every document and gesture, a listener used for submit events only is heard only when the page is left. C118_stays_partial: pages without form and href are never left (hypotheses frugal and known_tags as in C107); C118_chat: so is the chat's."
  },
  {
   "property": "C119",
   "status": "partial",
   "theorems": [
    "C119_again_partial",
    "C119_again_exactly",
    "C119_again_refuted"
   ],
   "note": "Refuted (C119_again_refuted: the second write has no body, its reader takes the following bytes of the connection for it). C119_again_partial: what the second attempt sends, for every point where the first broke off; C119_again_exactly: when that is the whole request."
  },
  {
   "property": "C120",
   "status": "partial",
   "theorems": [
    "C120_series_partial",
    "C120_again_exactly",
    "C120_again_refuted"
   ],
   "note": "Refuted (C120_again_refuted: the second receiver is promised five bytes and gets none). C120_series_partial: what every receiver of a series gets, as a relation; C120_again_exactly: when a receiver gets the whole response."
  },
  {
   "property": "C121",
   "status": "partial",
   "theorems": [
    "C121_exactly",
    "C121_usual_partial",
    "C121_nothing_else_counts",
    "C121_invalid_accepted_refuted",
    "C121_valid_refused_refuted"
   ],
   "note": "False in both directions (two refuted theorems); C121_exactly gives the accepted requests, C121_usual_partial that handshakes written as browsers write them are accepted, C121_nothing_else_counts that method, version, key and Origin do not matter."
  },
  {
   "property": "C122",
   "status": "proved",
   "theorems": [
    "C122_ids_stay_small",
    "C122_memory_is_bounded",
    "C122_new_id",
    "C122_ids_on_pages"
   ],
   "note": "Over all histories of requests and answers of the server."
  },
  {
   "property": "C123",
   "status": "partial",
   "theorems": [
    "C123_exactly",
    "C123_cut_off_exactly",
    "C123_own_responses_partial",
    "C123_cut_off_refuted",
    "C123_head_refuted"
   ],
   "note": "C123_exactly and C123_cut_off_exactly give the exact conditions (a response that must not have a body has none; an announced length is right; a break is noticed inside the head or if a length was announced). The full claim is false: no response of the framework announces its length (C123_cut_off_refuted), and HEAD requests are answered with a body (C123_head_refuted)."
  },
  {
   "property": "C124",
   "status": "partial",
   "theorems": [
    "C124_exactly",
    "C124_series_partial",
    "C124_smuggled_refuted"
   ],
   "note": "C124_exactly gives the exact condition (the fields announce the body's length, or there is no body), C124_series_partial the claim for series of such requests. In general it is false: Request::write announces no length, so a body is taken for further requests (C124_smuggled_refuted)."
  },
  {
   "property": "C125",
   "status": "proved",
   "theorems": [
    "C125_one_after_another",
    "C125_in_time",
    "C125_added_is_read"
   ],
   "note": "Model: one process per connection plus the process with the list; any schedule, any arrival. C125_one_after_another (an equivalent order exists), C125_in_time (real time is respected), C125_added_is_read (a finished POST is seen by every later reader)."
  },
  {
   "property": "C126",
   "status": "proved",
   "theorems": [
    "C126_every_connection_ends",
    "C126_and_rightly"
   ],
   "note": "Weak fairness of the connection's own process and of the process with the list; a process being scheduled includes its client's bytes arriving. All other processes arbitrary."
  },
  {
   "property": "C127",
   "status": "partial",
   "theorems": [
    "C127_paid_for",
    "C127_no_amplification",
    "C127_copies",
    "C127_no_limit_refuted",
    "C127_odd_ping_refuted"
   ],
   "note": "C127_paid_for and C127_no_amplification (the exact bound, with 2 bytes for each ping of 65535 bytes) hold for every stream and history; C127_copies is the bound when the program works with copies of the socket. C127_no_limit_refuted: for every length the allocator serves there is a client that has one message of that length delivered. C127_odd_ping_refuted: the two bytes are real."
  },
  {
   "property": "C128",
   "status": "partial",
   "theorems": [
    "C128_never_reached_refuted",
    "C128_reached",
    "C128_link_exactly"
   ],
   "note": "Refuted for Match::new() without segments and for texts the URL Standard percent-encodes or treats as dot segments (no request reaches them: C128_never_reached_refuted); proved for all other matchers (C128_reached), and for links exactly when no text needs encoding (C128_link_exactly). Under the assumption that the crate url implements the URL Standard."
  },
  {
   "property": "C129",
   "status": "proved",
   "theorems": [
    "C129_any_order",
    "C129_order_matters",
    "C129_covered_is_dead",
    "C129_otherwise_alive"
   ],
   "note": "Proved for all lists of routes built from Match::new/at, requests with one Host field naming a host, and any crate url that implements the URL Standard (routes no request reaches at all are C128's)."
  }
 ]
}