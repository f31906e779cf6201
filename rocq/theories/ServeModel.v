(** The HTTP side of a live view: puck_liveview/src/init.rs, the routes of examples/chat/src/main.rs, and where
    puck_liveview/client/index.js connects to. *)
From Verif Require Import Base HMap Io WsModel HttpModel RouterModel UpgradeModel.

(** init.rs:12-21: the text of the page. *)
Definition index_html : str := bs "
        <!DOCTYPE html>
        <html>
            <head>
                <script src=""./js""></script>
            </head>
            <body>
            </body>
        </html>
        ".
(** init.rs:7-23 [index]. *)
Definition liveview_index : response :=
  rsb_build (rsb_body (body_from_string index_html) (rsb_header (bs "Content-Type") (bs "text/html") rsb_new)).
(** init.rs:28-33 [js]; [file] is the text of client/index.js (include_str!). *)
Definition liveview_js (file : str) : response :=
  rsb_build (rsb_body (body_from_string file) (rsb_header (bs "Content-Type") (bs "application/javascript") rsb_new)).

(** examples/chat/src/main.rs:470-490: the three handlers and the router. *)
Inductive chat_handler := ServeJs | ServeIndex | ServeWs.
Definition chat_router : router matcher chat_handler :=
  router_route (router_route (router_route router_new
    (Route (match_at match_new (Static (bs "js"))) ServeJs))
    (Route (match_at match_new (Static [])) ServeIndex))
    (Route (match_at match_new (Static (bs "ws"))) ServeWs).

(** How the process of a connection ends: it is done, it is a live view from here on (main.rs:488, [liveview], which
    does not return), or it panicked. *)
Inductive conn_end := Done | Live (ws : websocket) | ConnPanicked.

(** The handlers: core/mod.rs:146-155 [Stream::respond] and its [unwrap] (main.rs:473, 477); main.rs:481-489. *)
Definition chat_handle {U} (hash : str -> str) (sz : nat -> nat) (file : str) (h : chat_handler) (req : request U) (budget : option nat)
  : str * conn_end :=
  let page r := match encode sz r budget with (out, Ok _) => (out, Done) | (out, _) => (out, ConnPanicked) end in
  match h with
  | ServeJs => page (liveview_js file)
  | ServeIndex => page liveview_index
  | ServeWs => match stream_upgrade hash sz req budget with
               | (out, Ok (Some ws)) => (out, Live ws)
               | (out, Ok None) => (out, Done)
               | (out, _) => (out, ConnPanicked)
               end
  end.

(** main.rs:492-494 with core/mod.rs:45-64: one connection [s] of the chat server. *)
Definition chat_conn {U} (ev : env U) (im : image matcher chat_handler) (hash : str -> str) (sz : nat -> nat) (file : str)
  (s : stream) (budget : option nat) : str * conn_end :=
  match serve_conn ev im (fun m (r : request U) => does_match ev m (rq_url r)) sz (as_ints im chat_router) s tt budget with
  | Handled ((h, req, _) :: _) => chat_handle hash sz file h req budget
  | Handled [] => ([], Done)
  | Answered out => (out, Done)
  | Silent => ([], Done)
  | Crashed | Stuck => ([], ConnPanicked)
  end.

(** The URLs the page asks for. init.rs:16: the browser resolves "./js" against the path of the page (RFC 3986
    5.2.3-5.2.4: the path up to and including its last slash, then the dot segment is dropped); index.js:1:
    [window.location.pathname + "ws"]. *)
Fixpoint upto_last_slash (p : str) : str :=
  match p with
  | [] => []
  | c :: p' => if existsb (byte_eqb x2f) p' then c :: upto_last_slash p' else if byte_eqb x2f c then [c] else []
  end.
Definition script_path (page : str) : str := upto_last_slash page ++ bs "js".
Definition socket_path (page : str) : str := page ++ bs "ws".
