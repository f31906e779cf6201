(** Vocabulary for the statements about component processes. *)
From Verif Require Import Base HMap Num DomModel DomSpec ClientModel ComponentModel JsonSpec.
From Verif Require WsModel.

(** Messages that stop the component or must not occur. *)
Definition closing {I P} (m : mail I P) : Prop := m = Ws (inr WsModel.ConnectionClosed).
Definition identity {I P} (m : mail I P) : Prop := exists p, m = WhoAmI p.

(** With the handlers [ls], the message asks for an update with the input [i]. *)
Inductive asks {I P} (ls : hmap (handler I)) : mail I P -> I -> Prop :=
| asks_direct i : asks ls (Input i) i
| asks_click text name payload call :
    says text name payload -> get name ls = Some (OnClick call) -> asks ls (Ws (inl (WsModel.Text text))) call
| asks_submit text name payload call :
    says text name payload -> get name ls = Some (OnSubmit call) -> asks ls (Ws (inl (WsModel.Text text))) call
| asks_input text name value call :
    says text name (Some value) -> get name ls = Some (OnInput call) -> asks ls (Ws (inl (WsModel.Text text))) (call value).

Section Lives.
Context {D I S E P : Type} (C : component D I S E P) (ctx : P).

(** The life of a component in a message history, without any snapshot: a message is judged by the
    handlers rendered from the component's state at that time. [lives c ms cs c']: the states after each
    update are [cs], the last state is [c']. *)
Inductive lives : S -> list (E * mail I P) -> list S -> S -> Prop :=
| lives_end c : lives c [] [] c
| lives_update c dom ls e m i c1 ms cs c2 : c_render C c = Some (dom, ls) -> asks ls m i ->
    c_update C e c i ctx = Some c1 -> lives c1 ms cs c2 -> lives c ((e, m) :: ms) (c1 :: cs) c2
| lives_idle c dom ls e m ms cs c2 : c_render C c = Some (dom, ls) -> (forall i, ~ asks ls m i) -> ~ closing m -> ~ identity m ->
    lives c ms cs c2 -> lives c ((e, m) :: ms) cs c2.
End Lives.

(** The texts sent for a sequence of pages: one changeset per page, each relative to the page before. *)
Inductive updates : element -> list element -> list str -> Prop :=
| up_nil d : updates d [] []
| up_cons d d' ds os outs : diff d (Some d') = Some os -> updates d' ds outs -> updates d (d' :: ds) (wire os :: outs).

(** A sequence of pages, each related to the one before. *)
Fixpoint linked (R : element -> element -> Prop) (d : element) (ds : list element) : Prop :=
  match ds with [] => True | d' :: ds' => R d d' /\ linked R d' ds' end.
(** The pages of a sequence of states. *)
Definition pages {D I S E P} (C : component D I S E P) : list S -> list element -> Prop :=
  Forall2 (fun c d => exists l, c_render C c = Some (d, l)).

(** A client that keeps the tree and applies changesets. *)
Fixpoint apply_all (max : N) (oss : list (list op)) (e : element) : option element :=
  match oss with
  | [] => Some e
  | os :: oss' => match apply max os e with Some e' => apply_all max oss' e' | None => None end
  end.
(** A browser receiving texts; the flag: no exception in any of them. *)
Fixpoint browse (reparse : str -> str -> list node -> list node) (texts : list str) (doc : list node) : list node * bool :=
  match texts with
  | [] => (doc, true)
  | t :: ts => let '(doc1, ok1) := on_message reparse t doc in
               let '(doc2, ok2) := browse reparse ts doc1 in (doc2, ok1 && ok2)
  end.

(** A component that does not fail: from [data] it starts, and with the messages [Allowed] it goes from states
    [Inv] to states [Inv], renders all of them, and the pages can be compared. *)
Definition sound {D I S E P} (C : component D I S E P) (data : D) (p : P) (Inv : S -> Prop) (Allowed : E * mail I P -> Prop) : Prop :=
  (forall e, exists c, c_new C e data p = Some c /\ Inv c) /\
  (forall c, Inv c -> exists d l, c_render C c = Some (d, l)) /\
  (forall e m c d l i, Inv c -> c_render C c = Some (d, l) -> Allowed (e, m) -> asks l m i ->
     exists c', c_update C e c i p = Some c' /\ Inv c' /\ forall d' l', c_render C c' = Some (d', l') -> diff d (Some d') <> None).

(** With the handlers [ls], the component has no use for the message: not text, not JSON of the right shape, for
    no listener, or without the value a listener needs; and not the end of the connection. *)
Definition noise {I P} (ls : hmap (handler I)) (m : mail I P) : Prop :=
  exists r, m = Ws r /\ r <> inr WsModel.ConnectionClosed /\
    forall text name payload, r = inl (WsModel.Text text) -> says text name payload ->
      get name ls = None \/ (payload = None /\ exists call, get name ls = Some (OnInput call)).

(** What has been delivered of each kind. *)
Definition inputs_of {I P} (ms : list (mail I P)) : list I := flat_map (fun m => match m with Input i => [i] | _ => [] end) ms.
Definition ws_of {I P} (ms : list (mail I P)) : list (WsModel.message + WsModel.next_err) :=
  flat_map (fun m => match m with Ws r => [r] | _ => [] end) ms.

(** The JavaScript event a handler is for (dom/listener.rs:45-51). *)
Definition event_of {I} (h : handler I) : str :=
  match h with OnClick _ => bs "click" | OnSubmit _ => bs "submit" | OnInput _ => bs "input" end.
(** What the handler makes of it. *)
Definition input_for {I} (h : handler I) (value : str) : I :=
  match h with OnClick c => c | OnSubmit c => c | OnInput f => f value end.
(** A listener on some node of a document. *)
Inductive listening : node -> str * str -> Prop :=
| listening_here t a l kids x : In x l -> listening (Elem t a l kids) x
| listening_below t a l kids n x : In n kids -> listening n x -> listening (Elem t a l kids) x.

(** Every listener on the page has a handler for its event in the table. *)
Definition wired {I} (ls : hmap (handler I)) : element -> Prop :=
  every (fun e => Forall (fun l => exists h, get (l_name l) ls = Some h /\ event_of h = l_event l) (el_listeners e)).
