(** Model of examples/list/src/main.rs with its processes side by side: one per connection, and the one with the list. *)
From Verif Require Import Base Num Io HttpModel RouterModel ListModel.

(** main.rs:31-130, the four handlers up to [state.request]: what they ask the process with the list, if anything (lines 59-65, 96-99). *)
Definition handler_asks {U} (ev : env U) (sz : nat -> nat) (h : list_handler) (req : request U) : option lmsg :=
  match h with
  | ServePost => match into_string (max_string ev) sz (rq_body req) with
                 | Ok body => if starts_with (bs "message=") body then Some (AddItem (skipn 8 body)) else None
                 | _ => None
                 end
  | ServeRead => let path := url_path ev (rq_url req) in
                 if (length path <? 6)%nat then None
                 else match parse_uint (2 ^ usize_bits ev - 1) (skipn 6 path) with Some n => Some (LastN n) | None => None end
  | ServeForm | Serve404 => None
  end.
(** The same handlers behind [state.request] (main.rs:65-84, 100-126), or throughout if they ask nothing: what is written, and how
    the process ends. [reply]: what the process with the list said. *)
Definition handler_answers {U} (ev : env U) (sz : nat -> nat) (pg : list_pages) (h : list_handler) (req : request U) (reply : option lreply)
  (budget : option nat) : str * list_end :=
  let page r := match encode sz r budget with (out, Ok _) => (out, LDone) | (out, _) => (out, LPanicked) end in
  match h, reply with
  | ServeForm, _ => page (html_page (form_html pg))
  | ServePost, Some Added => page (html_page (added_html pg))
  | ServePost, Some (Items _) => ([], LPanicked)                                            (* 66, unreachable!() *)
  | ServePost, None => match into_string (max_string ev) sz (rq_body req) with Ok _ => page err_400 | _ => ([], LPanicked) end
  | ServeRead, Some (Items l) => page (html_page (items_html pg l))
  | ServeRead, Some Added => ([], LPanicked)                                                (* 102, unreachable!() *)
  | ServeRead, None => ([], LPanicked)                                                      (* 97-98 *)
  | Serve404, _ => page err_404
  end.
(** core/mod.rs:45-64 with these handlers: what the process of a connection asks. *)
Definition conn_asks {U} (ev : env U) (im : image list_matcher list_handler) (sz : nat -> nat) (s : stream) (budget : option nat) : option lmsg :=
  match serve_conn ev im (list_matches ev) sz (as_ints im list_router) s tt budget with
  | Handled ((h, req, _) :: _) => handler_asks ev sz h req
  | _ => None
  end.
(** And what it writes, and how it ends. *)
Definition conn_answers {U} (ev : env U) (im : image list_matcher list_handler) (sz : nat -> nat) (pg : list_pages) (s : stream)
  (reply : option lreply) (budget : option nat) : str * list_end :=
  match serve_conn ev im (list_matches ev) sz (as_ints im list_router) s tt budget with
  | Handled ((h, req, _) :: _) => handler_answers ev sz pg h req reply budget
  | Handled [] => ([], LDone)
  | Answered out => (out, LDone)
  | Silent => ([], LDone)
  | Crashed | Stuck => ([], LPanicked)
  end.

(** Where the process of a connection is: begun; waiting for the reply to [m]; having got it; ended. *)
Inductive stage := Begun | Waiting (m : lmsg) | Got (r : lreply) | Ended (out : str) (e : list_end).
Record conn := Conn { c_stream : stream; c_budget : option nat; c_stage : stage }.
(** The list, and the connections in the order in which they were accepted. *)
Record rworld := RWorld { r_items : list str; r_conns : list conn }.
Definition race_init : rworld := RWorld [] [].                                              (* main.rs:21 *)

(** One step of one process. The accept loop (core/mod.rs:41-67) starts a process per connection; a process runs up to its request to
    the list, or to its end; the process with the list handles one of the waiting requests (whichever is first in its mailbox: any);
    and a process with its reply runs to its end. *)
Inductive race_step {U} (ev : env U) (im : image list_matcher list_handler) (sz : nat -> nat) (pg : list_pages) : rworld -> rworld -> Prop :=
| accepts items cs s budget : race_step ev im sz pg (RWorld items cs) (RWorld items (cs ++ [Conn s budget Begun]))
| asks items l1 s budget m l2 : conn_asks ev im sz s budget = Some m ->
    race_step ev im sz pg (RWorld items (l1 ++ Conn s budget Begun :: l2)) (RWorld items (l1 ++ Conn s budget (Waiting m) :: l2))
| alone items l1 s budget out e l2 : conn_asks ev im sz s budget = None -> conn_answers ev im sz pg s None budget = (out, e) ->
    race_step ev im sz pg (RWorld items (l1 ++ Conn s budget Begun :: l2)) (RWorld items (l1 ++ Conn s budget (Ended out e) :: l2))
| handles items l1 s budget m items' r l2 : list_handle items m = (items', r) ->
    race_step ev im sz pg (RWorld items (l1 ++ Conn s budget (Waiting m) :: l2)) (RWorld items' (l1 ++ Conn s budget (Got r) :: l2))
| answers items l1 s budget r out e l2 : conn_answers ev im sz pg s (Some r) budget = (out, e) ->
    race_step ev im sz pg (RWorld items (l1 ++ Conn s budget (Got r) :: l2)) (RWorld items (l1 ++ Conn s budget (Ended out e) :: l2)).
Inductive race_steps {U} (ev : env U) (im : image list_matcher list_handler) (sz : nat -> nat) (pg : list_pages) (w : rworld) : rworld -> Prop :=
| no_step : race_steps ev im sz pg w w
| more_steps w1 w2 : race_steps ev im sz pg w w1 -> race_step ev im sz pg w1 w2 -> race_steps ev im sz pg w w2.

(** ** The same with the mailbox of the process with the list *)
(** [m_box]: the connections whose requests are in the mailbox, oldest first (lunatic's mailboxes are queues). *)
Record mworld := MWorld { m_world : rworld; m_box : list nat }.
Definition mail_init : mworld := MWorld race_init [].
(** A step of the accept loop (core/mod.rs:41-67). *)
Inductive accept_step : mworld -> mworld -> Prop :=
| m_accepts items cs s budget box : accept_step (MWorld (RWorld items cs) box) (MWorld (RWorld items (cs ++ [Conn s budget Begun])) box).
(** A step of the process of connection [i]: it runs up to its request to the list (main.rs:65, 99), or to its end; and once it has the
    reply, to its end. *)
Inductive conn_step {U} (ev : env U) (im : image list_matcher list_handler) (sz : nat -> nat) (pg : list_pages) (i : nat) : mworld -> mworld -> Prop :=
| m_asks items l1 s budget m l2 box : length l1 = i -> conn_asks ev im sz s budget = Some m ->
    conn_step ev im sz pg i (MWorld (RWorld items (l1 ++ Conn s budget Begun :: l2)) box) (MWorld (RWorld items (l1 ++ Conn s budget (Waiting m) :: l2)) (box ++ [i]))
| m_alone items l1 s budget out e l2 box : length l1 = i -> conn_asks ev im sz s budget = None -> conn_answers ev im sz pg s None budget = (out, e) ->
    conn_step ev im sz pg i (MWorld (RWorld items (l1 ++ Conn s budget Begun :: l2)) box) (MWorld (RWorld items (l1 ++ Conn s budget (Ended out e) :: l2)) box)
| m_answers items l1 s budget r out e l2 box : length l1 = i -> conn_answers ev im sz pg s (Some r) budget = (out, e) ->
    conn_step ev im sz pg i (MWorld (RWorld items (l1 ++ Conn s budget (Got r) :: l2)) box) (MWorld (RWorld items (l1 ++ Conn s budget (Ended out e) :: l2)) box).
(** A step of the process with the list: it handles the oldest request in its mailbox (main.rs:161-177). *)
Inductive list_step : mworld -> mworld -> Prop :=
| m_handles items l1 s budget m items' r l2 box : list_handle items m = (items', r) ->
    list_step (MWorld (RWorld items (l1 ++ Conn s budget (Waiting m) :: l2)) (length l1 :: box)) (MWorld (RWorld items' (l1 ++ Conn s budget (Got r) :: l2)) box).
Definition mail_step {U} (ev : env U) (im : image list_matcher list_handler) (sz : nat -> nat) (pg : list_pages) (w w' : mworld) : Prop :=
  accept_step w w' \/ (exists i, conn_step ev im sz pg i w w') \/ list_step w w'.
