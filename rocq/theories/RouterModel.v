(** Model of puck/src/core/router/{mod,match_url}.rs and of the accept loops of puck/src/core/mod.rs. *)
From Verif Require Import Base HMap Num Io HttpModel.

(* ------------------------------------------------------------------ *)
(** ** URL matching *)

(** puck/src/core/router/match_url.rs:63-72 [Segment]. *)
Inductive segment := Static (s : str) | Param | IntParam.
(** match_url.rs:8-11 [Match]. *)
Definition matcher := list segment.
(** match_url.rs:15-23 [Match::new], [Match::at]. *)
Definition match_new : matcher := [].
Definition match_at (m : matcher) (s : segment) : matcher := m ++ [s].

(** match_url.rs:36-59, the loop of [does_match] over the two iterators. *)
Fixpoint match_loop (expected : list segment) (actual : list str) : bool :=
  match expected with
  | [] => match actual with [] => true | _ => false end
  | e :: expected' =>
      match actual with
      | [] => false
      | a :: actual' =>
          match e with
          | Static p => if str_eqb p a then match_loop expected' actual' else false
          | Param => match_loop expected' actual'
          | IntParam => match parse_i32 a with Some _ => match_loop expected' actual' | None => false end
          end
      end
  end.
(** match_url.rs:26-60 [Match::does_match]; [url_segments] is Url::path_segments. *)
Definition does_match {U} (ev : env U) (m : matcher) (u : U) : bool :=
  match url_segments ev u with
  | None => false
  | Some segs => match_loop m segs
  end.

(* ------------------------------------------------------------------ *)
(** ** Routers *)

(** puck/src/core/router/mod.rs:13-19 [Route]. [M] and [H] are the program's matcher and handler
    functions (as function items); [rt_matcher], [rt_handler] are function pointers to them. *)
Record route (M H : Type) := Route { rt_matcher : M; rt_handler : H }.
Arguments Route {M H}.
Arguments rt_matcher {M H} _.
Arguments rt_handler {M H} _.
(** mod.rs:43-45 [Router]. *)
Definition router (M H : Type) := list (route M H).
(** mod.rs:49-57 [Router::new], [Router::route]. *)
Definition router_new {M H} : router M H := [].
Definition router_route {M H} (r : router M H) (x : route M H) : router M H := r ++ [x].

(** The loaded program: where functions are, and what is found at an address. *)
Record image (M H : Type) := Image { m_addr : M -> N; h_addr : H -> N; m_at : N -> option M; h_at : N -> option H }.
Arguments m_addr {M H} _.
Arguments h_addr {M H} _.
Arguments m_at {M H} _.
Arguments h_at {M H} _.
(** mod.rs:60-70 [as_ints]. *)
Definition as_ints {M H} (im : image M H) (r : router M H) : list (N * N) :=
  map (fun x => (m_addr im (rt_matcher x), h_addr im (rt_handler x))) r.
(** mod.rs:73-95 [from_ints]: a transmute of each integer. [None]: an integer that is not the address
    of a function of that type (undefined behaviour). *)
Fixpoint from_ints {M H} (im : image M H) (l : list (N * N)) : option (router M H) :=
  match l with
  | [] => Some []
  | (m, h) :: l' =>
      match m_at im m, h_at im h, from_ints im l' with
      | Some fm, Some fh, Some r => Some (Route fm fh :: r)
      | _, _, _ => None
      end
  end.

(** mod.rs:118-125 [Router::respond]: the handler invocations made, in order. [run_m] runs a matcher. *)
Fixpoint respond {M H U S} (run_m : M -> request U -> bool) (r : router M H) (req : request U) (st : S)
  : list (H * request U * S) :=
  match r with
  | [] => []
  | x :: r' => if run_m (rt_matcher x) req then [(rt_handler x, req, st)] else respond run_m r' req st
  end.

(* ------------------------------------------------------------------ *)
(** ** One accepted connection *)

(** What a connection process does. *)
Inductive conn_result (H U S : Type) :=
| Handled (calls : list (H * request U * S))   (* handler invocations, possibly none *)
| Answered (out : str)                          (* bytes written by puck itself *)
| Silent                                        (* finished without writing *)
| Crashed                                       (* panicked without writing *)
| Stuck.                                        (* undefined behaviour: a bad function pointer *)
Arguments Handled {H U S}.
Arguments Answered {H U S}.
Arguments Silent {H U S}.
Arguments Crashed {H U S}.
Arguments Stuck {H U S}.

(** puck/src/core/mod.rs:45-64, the closure spawned by [serve_router]. *)
Definition serve_conn {M H U S} (ev : env U) (im : image M H) (run_m : M -> request U -> bool) (sz : nat -> nat)
  (ints : list (N * N)) (s : stream) (st : S) (budget : option nat) : conn_result H U S :=
  match from_ints im ints with
  | None => Stuck
  | Some r =>
      match request_parse ev s with
      | Ok (Some req) => Handled (respond run_m r req st)
      | Ok None => Answered (fst (encode sz err_400 budget))            (* result ignored, line 56 *)
      | _ => Crashed                                                     (* unwrap, line 48 *)
      end
  end.
(** puck/src/core/router/mod.rs:106-113, the closure spawned by [Router::run]. *)
Definition run_conn {M H U S} (ev : env U) (im : image M H) (run_m : M -> request U -> bool)
  (ints : list (N * N)) (s : stream) (st : S) : conn_result H U S :=
  match request_parse ev s with
  | Ok (Some req) => match from_ints im ints with Some r => Handled (respond run_m r req st) | None => Stuck end
  | _ => Silent
  end.
(** puck/src/core/mod.rs:82-106, the closure spawned by [for_each]; [func] is called through its
    address. *)
Definition each_conn {M H U S} (ev : env U) (im : image M H) (func : N) (s : stream) (st : S) : conn_result H U S :=
  match request_parse ev s with
  | Ok (Some req) => match h_at im func with Some f => Handled [(f, req, st)] | None => Stuck end
  | _ => Crashed                                                         (* todo!(), line 102 *)
  end.

(** The accept loops (core/mod.rs:41-67, router/mod.rs:99-115): failed accepts are skipped, each
    accepted connection gets its own process with a clone of the state. *)
Definition serve_all {M H U S} (ev : env U) (im : image M H) (run_m : M -> request U -> bool) (sz : nat -> nat)
  (r : router M H) (st : S) (accepts : list (option (stream * option nat))) : list (conn_result H U S) :=
  flat_map (fun a => match a with
    | None => []
    | Some (s, budget) => [serve_conn ev im run_m sz (as_ints im r) s st budget]
    end) accepts.
