(** A component process and a browser that are not always up to date with one another: the browser sends texts while it
    shows an earlier page than the process has rendered by then. *)
From Verif Require Import Base HMap DomModel ClientModel ComponentModel ComponentSpec.
From Verif Require WsModel.

Section Stale.
Context {D I S E P : Type} (C : component D I S E P) (data : D) (p : P).
(** What a text means under the handlers [ls]. *)
Definition means (ls : hmap (handler I)) (text : str) (o : option I) : Prop :=
  match o with
  | Some i => asks ls (Ws (inl (WsModel.Text text)) : mail I P) i
  | None => forall i, ~ asks ls (Ws (inl (WsModel.Text text)) : mail I P) i
  end.
(** What the process has received; how many of its texts the browser has read; the texts the browser has sent, each with
    what it meant on the page shown then (that of the process when it had sent as many texts as the browser had read);
    how many of them the process has received, and what each of these made it do (C60: an update with that input, or
    nothing). *)
Record link := Link { g_ms : list (E * mail I P); g_read : nat; g_sent : list (str * option I); g_taken : nat; g_done : list (option I) }.
Inductive talks : link -> Prop :=
| talk_start e : talks (Link [(e, WhoAmI p)] 0 [] 0 [])
| talk_read ms r s t d : talks (Link ms r s t d) -> r < length (snd (main_loop C data true ms)) -> talks (Link ms (Datatypes.S r) s t d)
| talk_send r s t d before after c dom ls out text o : talks (Link (before ++ after) r s t d) ->
    main_loop C data true before = (Looping p c dom ls, out) -> length out = r -> means ls text o ->
    talks (Link (before ++ after) r (s ++ [(text, o)]) t d)
| talk_take ms r s t d e text o c dom ls out o' : talks (Link ms r s t d) -> nth_error s t = Some (text, o) ->
    main_loop C data true ms = (Looping p c dom ls, out) -> means ls text o' ->
    talks (Link (ms ++ [(e, Ws (inl (WsModel.Text text)))]) r s (Datatypes.S t) (d ++ [o']))
| talk_other ms r s t d e i : talks (Link ms r s t d) -> talks (Link (ms ++ [(e, Input i)]) r s t d).
(** The handlers of two pages of the session. *)
Definition both (k : link) (l l' : hmap (handler I)) : Prop :=
  exists a b a' b' c dom out c' dom' out', g_ms k = a ++ b /\ g_ms k = a' ++ b' /\
    main_loop C data true a = (Looping p c dom l, out) /\ main_loop C data true a' = (Looping p c' dom' l', out').
(** Pages that have a handler of the same name have the same handler there. *)
Definition consistent (k : link) : Prop := forall l l' name h h', both k l l' -> get name l = Some h -> get name l' = Some h' -> h = h'.
(** All pages have the same handlers. *)
Definition steady (k : link) : Prop := forall l l' name, both k l l' -> get name l = get name l'.
End Stale.
Arguments Link {I E P}. Arguments g_ms {I E P}. Arguments g_read {I E P}. Arguments g_sent {I E P}. Arguments g_taken {I E P}. Arguments g_done {I E P}.
