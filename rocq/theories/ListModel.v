(** Model of examples/list/src/main.rs. *)
From Verif Require Import Base Num Utf8 Io HttpModel RouterModel.

(** main.rs:137-142 [Msg], 180-184 [Reply]. *)
Inductive lmsg := AddItem (item : str) | AllItems | LastN (n : N).
Inductive lreply := Items (l : list str) | Added.
(** main.rs:161-177 [handle]: the new list and the reply. *)
Definition list_handle (items : list str) (m : lmsg) : list str * lreply :=
  match m with
  | AddItem s => (items ++ [s], Added)                                   (* 163-166 *)
  | AllItems => (items, Items items)                                     (* 167 *)
  | LastN n => if (N.of_nat (length items) <? n)%N then (items, Items items) (* 169-170 *)
               else (items, Items (skipn 0 items))                       (* 172, get(0..) *)
  end.

(** What the example answers: the form, the page with the items, "Added that item", a 400 or a 404; or the
    handler panics. *)
Inductive answer := FormPage | ItemsPage (l : list str) | AddedPage | BadRequest | NotFound | HandlerPanic.

(** url's path_segments: the path without the leading slash, split at slashes. *)
Definition path_segments (path : str) : option (list str) :=
  match path with c :: rest => if byte_eqb c x2f then Some (split_on x2f rest) else None | [] => None end.
Definition path_matches (m : matcher) (path : str) : bool :=
  match path_segments path with None => false | Some segs => match_loop m segs end.
Definition is_get (m : method) : bool := match m with Get => true | _ => false end.
Definition is_post (m : method) : bool := match m with Post => true | _ => false end.

(** main.rs:23-134: one request, by its method, the path of its URL, the length its body declares and the bytes of
    the body. [max] is usize::MAX, [lim] the largest allocation. The new list and the answer; a failing [respond] is not modelled (see C12). *)
Definition list_request (max lim : N) (items : list str) (m : method) (path : str) (declared : option N) (body : str) : list str * answer :=
  if is_get m && path_matches (match_at match_new (Static (bs "submit"))) path        (* 26-31 *)
  then (items, FormPage)
  else if is_post m && path_matches (match_at match_new (Static (bs "submit"))) path  (* 53-58 *)
  then if N.ltb lim (match declared with Some n => n | None => 0%N end) then (items, HandlerPanic) (* 60, body/mod.rs:80 *)
       else if negb (valid_utf8 body) then (items, HandlerPanic)                      (* 60, body/mod.rs:81 *)
       else if starts_with (bs "message=") body                                       (* 62-64 *)
            then match list_handle items (AddItem (skipn 8 body)) with
                 | (items', Added) => (items', AddedPage)
                 | (items', Items _) => (items', HandlerPanic)                        (* 67 *)
                 end
            else (items, BadRequest)                                                  (* 86 *)
  else if path_matches (match_at (match_at match_new (Static (bs "read"))) IntParam) path (* 91-96 *)
  then match parse_uint max (skipn 6 path) with                                       (* 98-99 *)
       | None => (items, HandlerPanic)
       | Some n => match list_handle items (LastN n) with
                   | (items', Items l) => (items', ItemsPage l)
                   | (items', Added) => (items', HandlerPanic)                        (* 103 *)
                   end
       end
  else (items, NotFound).                                                             (* 127-130 *)

(** A history of requests. *)
Fixpoint list_run (max lim : N) (items : list str) (rs : list (method * str * option N * str)) : list str * list answer :=
  match rs with
  | [] => (items, [])
  | (m, path, declared, body) :: rs' =>
      let '(items1, a) := list_request max lim items m path declared body in
      let '(items2, l) := list_run max lim items1 rs' in (items2, a :: l)
  end.

(* ------------------------------------------------------------------ *)
(** ** The example as a server: from the bytes of a connection to the bytes of the answer *)

(** main.rs:25-30, 52-57, 90-95, 128: the four matchers; main.rs:31-48, 58-88, 96-126, 129: the four handlers. *)
Inductive list_matcher := GetSubmit | PostSubmit | ReadInt | Anything.
Inductive list_handler := ServeForm | ServePost | ServeRead | Serve404.
Definition list_matches {U} (ev : env U) (m : list_matcher) (r : request U) : bool :=
  match m with
  | GetSubmit => is_get (rq_method r) && does_match ev (match_at match_new (Static (bs "submit"))) (rq_url r)
  | PostSubmit => is_post (rq_method r) && does_match ev (match_at match_new (Static (bs "submit"))) (rq_url r)
  | ReadInt => does_match ev (match_at (match_at match_new (Static (bs "read"))) IntParam) (rq_url r)
  | Anything => true
  end.
(** main.rs:23-130: the router. *)
Definition list_router : router list_matcher list_handler :=
  router_route (router_route (router_route (router_route router_new (Route GetSubmit ServeForm)) (Route PostSubmit ServePost))
    (Route ReadInt ServeRead)) (Route Anything Serve404).

(** The HTML malvolio makes of the three pages (main.rs:37-45, 73-78, 108-122); malvolio is not part of the
    repository, so these texts are parameters. *)
Record list_pages := ListPages { form_html : str; added_html : str; items_html : list str -> str }.
(** main.rs:33-48, 69-81, 104-125: Response::build().headers(...).body(...).build(). *)
Definition html_page (html : str) : response :=
  rsb_build (rsb_body (body_from_string html) (rsb_headers [(bs "Content-Type", bs "text/html")] rsb_new)).

(** How the process of a connection ends. *)
Inductive list_end := LDone | LPanicked.
(** One call of a handler: the new list, the bytes written, and how the process ends. [max] is usize::MAX.
    [respond(..).unwrap()] panics when the transport fails; so do [into_string().unwrap()] (line 60),
    [split_at] (line 97) and [parse().unwrap()] (line 98). *)
Definition list_serve {U} (ev : env U) (sz : nat -> nat) (pg : list_pages) (items : list str) (h : list_handler) (req : request U)
  (budget : option nat) : list str * str * list_end :=
  let page items r := match encode sz r budget with (out, Ok _) => (items, out, LDone) | (out, _) => (items, out, LPanicked) end in
  match h with
  | ServeForm => page items (html_page (form_html pg))
  | ServePost =>
      match into_string (max_string ev) sz (rq_body req) with                                            (* 59 *)
      | Ok body => if starts_with (bs "message=") body                                      (* 61-63 *)
                   then match list_handle items (AddItem (skipn 8 body)) with               (* 65 *)
                        | (items', Added) => page items' (html_page (added_html pg))
                        | (items', Items _) => (items', [], LPanicked)
                        end
                   else page items err_400                                                  (* 86 *)
      | _ => (items, [], LPanicked)
      end
  | ServeRead =>
      let path := url_path ev (rq_url req) in
      if (length path <? 6)%nat then (items, [], LPanicked)                                 (* 97 *)
      else match parse_uint (2 ^ usize_bits ev - 1) (skipn 6 path) with                     (* 98 *)
           | None => (items, [], LPanicked)
           | Some n => match list_handle items (LastN n) with                               (* 99-103 *)
                       | (items', Items l) => page items' (html_page (items_html pg l))
                       | (items', Added) => (items', [], LPanicked)
                       end
           end
  | Serve404 => page items err_404
  end.
(** main.rs:132-134 with core/mod.rs:45-64: one connection [s]. A handler asks the process with the list at most
    once, so connections that run at the same time amount to connections one after another, in the order in which
    that process gets their requests: ListRace.v has the processes side by side, and C125 shows it. *)
Definition list_conn {U} (ev : env U) (im : image list_matcher list_handler) (sz : nat -> nat) (pg : list_pages) (items : list str)
  (s : stream) (budget : option nat) : list str * str * list_end :=
  match serve_conn ev im (list_matches ev) sz (as_ints im list_router) s tt budget with
  | Handled ((h, req, _) :: _) => list_serve ev sz pg items h req budget
  | Handled [] => (items, [], LDone)
  | Answered out => (items, out, LDone)
  | Silent => (items, [], LDone)
  | Crashed | Stuck => (items, [], LPanicked)
  end.
(** Connections one after another: the list at the end, and what each connection got. *)
Fixpoint list_server {U} (ev : env U) (im : image list_matcher list_handler) (sz : nat -> nat) (pg : list_pages) (items : list str)
  (conns : list (stream * option nat)) : list str * list (str * list_end) :=
  match conns with
  | [] => (items, [])
  | (s, budget) :: conns' =>
      let '(items1, out, e) := list_conn ev im sz pg items s budget in
      let '(items2, l) := list_server ev im sz pg items1 conns' in (items2, (out, e) :: l)
  end.
