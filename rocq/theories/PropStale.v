(** C115: events on a page that is no longer current. *)
From Verif Require Import Base HMap Num Json DomModel ClientModel ClientSpec JsonSpec JsonProofs ComponentModel ComponentSpec ComponentProofs
  HtmlModel ChatModel ChatSpec ChatProofs2 UserModel StaleSpec PropClient PropComponent PropBrowser.
From Verif Require InnerHtml WsModel.
From Coq Require Import Lia.

Section Stale.
Context {D I S E P : Type} (C : component D I S E P) (data : D) (p : P).
Notation talks := (talks C data p).
Notation link := (@link I E P).
Lemma means_some (l l' : hmap (handler I)) text (i j : I) : (forall name h h', get name l = Some h -> get name l' = Some h' -> h = h') ->
  means (P := P) l text (Some i) -> means (P := P) l' text (Some j) -> i = j.
Proof.
  intros H A B. cbn [means] in A, B.
  inversion A as [|? n1 q1 c1 S1 G1|? n1 q1 c1 S1 G1|? n1 v1 c1 S1 G1]; subst; inversion B as [|? n2 q2 c2 S2 G2|? n2 q2 c2 S2 G2|? n2 v2 c2 S2 G2]; subst;
    unsay; rewrite S1 in S2; injection S2; intros; subst; pose proof (H _ _ _ G1 G2) as Eh; try discriminate Eh; injection Eh; intros; subst; congruence.
Qed.
Lemma asks_same (l l' : hmap (handler I)) (m : mail I P) i : (forall name, get name l = get name l') -> asks l m i -> asks l' m i.
Proof.
  intros H A. inversion A as [|? n1 q1 c1 S1 G1|? n1 q1 c1 S1 G1|? n1 v1 c1 S1 G1]; subst; [constructor|rewrite H in G1..].
  - eapply asks_click; eauto.
  - eapply asks_submit; eauto.
  - eapply asks_input; eauto.
Qed.
Lemma means_same (l l' : hmap (handler I)) text (o o' : option I) : (forall name, get name l = get name l') -> means (P := P) l text o -> means (P := P) l' text o' -> o = o'.
Proof.
  intros H A B. destruct o as [i|], o' as [j|]; cbn [means] in *.
  - f_equal. eapply asks_fun; [|exact B]. eapply asks_same; eauto.
  - destruct (B i). eapply asks_same; eauto.
  - destruct (A j). eapply asks_same; [|exact B]. intros name. now rewrite H.
  - reflexivity.
Qed.
Definition on_a_page (ms : list (E * mail I P)) (text : str) (o : option I) : Prop :=
  exists a b c dom ls out, ms = a ++ b /\ main_loop C data true a = (Looping p c dom ls, out) /\ means (P := P) ls text o.
Lemma page_more ms more text o : on_a_page ms text o -> on_a_page (ms ++ more) text o.
Proof. intros (a & b & c & dom & ls & out & -> & H & M). exists a, (b ++ more), c, dom, ls, out. split; [symmetry; apply app_assoc|auto]. Qed.
Definition linv (k : link) : Prop :=
  Forall (fun x => on_a_page (g_ms k) (fst x) (snd x)) (g_sent k) /\ length (g_done k) = g_taken k /\ g_taken k <= length (g_sent k) /\
  forall n o', nth_error (g_done k) n = Some o' -> exists text o, nth_error (g_sent k) n = Some (text, o) /\ on_a_page (g_ms k) text o'.
Lemma talks_inv k : talks k -> linv k.
Proof.
  induction 1 as [e|ms r s t d _ IH _|r s t d before after c dom ls out text o _ IH L _ M|ms r s t d e text o c dom ls out o' _ IH N L M|ms r s t d e i _ IH]; unfold linv in *; cbn [g_ms g_sent g_taken g_done] in *.
  - split; [constructor|]. split; [reflexivity|]. split; [lia|]. intros [|n] o' [=].
  - exact IH.
  - destruct IH as (F & Ld & Lt & H). split; [|split; [exact Ld|split]].
    + apply Forall_app. split; [exact F|]. constructor; [|constructor]. cbn [fst snd]. exists before, after, c, dom, ls, out. auto.
    + rewrite app_length. cbn [length]. lia.
    + intros n o' Hn. destruct (H n o' Hn) as (text' & o'' & Hs & Hp). exists text', o''. split; [|exact Hp]. rewrite nth_error_app1; [exact Hs|]. apply nth_error_Some. congruence.
  - destruct IH as (F & Ld & Lt & H). assert (t < length s) as Ls by (apply nth_error_Some; congruence). split; [|split; [|split]].
    + eapply Forall_impl; [|exact F]. cbn beta. intros x. apply page_more.
    + rewrite app_length. cbn [length]. lia.
    + lia.
    + intros n o1 Hn. destruct (Nat.lt_ge_cases n (length d)) as [Hlt|Hge].
      * rewrite nth_error_app1 in Hn by exact Hlt. destruct (H n o1 Hn) as (text' & o2 & Hs & Hp). exists text', o2. split; [exact Hs|]. now apply page_more.
      * rewrite nth_error_app2 in Hn by exact Hge. destruct (n - length d) as [|m] eqn:Em; [|destruct m; discriminate Hn]. cbn [nth_error] in Hn. injection Hn as <-. assert (n = t) as -> by lia. exists text, o. split; [exact N|]. exists ms. eexists _, c, dom, ls, out. split; [reflexivity|auto].
  - destruct IH as (F & Ld & Lt & H). split; [eapply Forall_impl; [|exact F]; cbn beta; intros x; apply page_more|]. split; [exact Ld|]. split; [exact Lt|].
    intros n o' Hn. destruct (H n o' Hn) as (text' & o2 & Hs & Hp). exists text', o2. split; [exact Hs|]. now apply page_more.
Qed.
Lemma two_pages k : talks k -> forall n text o o', nth_error (g_sent k) n = Some (text, o) -> nth_error (g_done k) n = Some o' ->
  exists l l', both C data p k l l' /\ means (P := P) l text o /\ means (P := P) l' text o'.
Proof.
  intros T n text o o' Hs Hd. destruct (talks_inv k T) as (F & _ & _ & H). destruct (H n o' Hd) as (text' & o2 & Hs' & Hp'). rewrite Hs in Hs'. injection Hs' as <- <-.
  rewrite Forall_forall in F. apply nth_error_In in Hs. specialize (F _ Hs). cbn [fst snd] in F. destruct F as (a & b & c & dom & ls & out & E1 & L1 & M1), Hp' as (a' & b' & c' & dom' & ls' & out' & E2 & L2 & M2).
  exists ls, ls'. split; [|auto]. exists a, b, a', b', c, dom, out, c', dom', out'. auto.
Qed.
End Stale.

(** Whatever the delays: where pages that use a handler's name again use it for the same handler, no event is taken for
    another one: the process does with it what it meant on the page it happened on, or nothing, or it meant nothing there. *)
Theorem C115_never_misread_partial : forall D I S E P (C : component D I S E P) data p k, talks C data p k -> consistent C data p k ->
  length (g_done k) = g_taken k /\
  forall n text i j, nth_error (g_sent k) n = Some (text, Some i) -> nth_error (g_done k) n = Some (Some j) -> i = j.
Proof.
  intros D I S E P C data p k T Hc. split; [exact (proj1 (proj2 (talks_inv C data p k T)))|]. intros n text i j Hs Hd.
  destruct (two_pages C data p k T n text _ _ Hs Hd) as (l & l' & B & M1 & M2). eapply (means_some (P := P) l l'); [|exact M1|exact M2]. intros name h h' G G'. exact (Hc l l' name h h' B G G').
Qed.
Print Assumptions C115_never_misread_partial.
(** Where all pages have the same handlers, the process does what the events meant on the pages they happened on: all
    of those received, once each, in order. *)
Theorem C115_all_as_meant_partial : forall D I S E P (C : component D I S E P) data p k, talks C data p k -> steady C data p k ->
  g_done k = firstn (g_taken k) (map snd (g_sent k)).
Proof.
  intros D I S E P C data p k T Hc. destruct (talks_inv C data p k T) as (_ & Ld & Lt & H).
  assert (forall n o', nth_error (g_done k) n = Some o' -> nth_error (map snd (g_sent k)) n = Some o') as H1.
  { intros n o' Hd. destruct (H n o' Hd) as (text & o & Hs & _). destruct (two_pages C data p k T n text _ _ Hs Hd) as (l & l' & B & M1 & M2).
    rewrite nth_error_map, Hs. cbn [option_map snd]. f_equal. eapply (means_same (P := P) l l'); [|exact M1|exact M2]. intros name. exact (Hc l l' name B). }
  rewrite <- Ld in *. clear H Ld T Hc. rewrite <- (map_length snd) in Lt. revert H1 Lt. generalize (map snd (g_sent k)). generalize (g_done k). clear k.
  induction l as [|x l IH]; intros l0 H1 Lt; [reflexivity|]. destruct l0 as [|y l0]; [cbn [length] in Lt; lia|]. cbn [length firstn]. pose proof (H1 0 x eq_refl) as E0. cbn [nth_error] in E0. injection E0 as ->. f_equal.
  apply IH; [intros n o' Hn; apply (H1 (Datatypes.S n)); exact Hn|cbn [length] in Lt; lia].
Qed.
Print Assumptions C115_all_as_meant_partial.
(** The chat is such: nothing a user does there is ever taken for something else. *)
Theorem C115_chat : forall p k, talks chat_component tt p k ->
  forall n text i j, nth_error (g_sent k) n = Some (text, Some i) -> nth_error (g_done k) n = Some (Some j) -> i = j.
Proof.
  intros p k T. refine (proj2 (C115_never_misread_partial _ _ _ _ _ _ _ _ _ T _)).
  assert (exists e rest, g_ms k = (e, WhoAmI p) :: rest) as (e & rest & Ek).
  { induction T as [e|ms r s t d _ IH _|r s t d before after c dom ls out text o _ IH L _ M|ms r s t d e text o c dom ls out o' _ (e0 & rest & IH) N L M|ms r s t d e i _ (e0 & rest & IH)]; cbn [g_ms] in *; eauto; rewrite IH; eexists _, _; reflexivity. }
  assert (forall a b c dom l out, g_ms k = a ++ b -> main_loop chat_component tt true a = (Looping p c dom l, out) -> l = chat_listeners c) as Hl.
  { intros a b c dom l out Ea L. destruct a as [|[e1 m1] a]; [discriminate L|]. rewrite Ek in Ea. cbn [app] in Ea. injection Ea as <- <- _.
    apply C60_snapshot_current in L as (_ & R & _). cbn [c_render chat_component] in R. destruct (into_element (chat_page c) 0) as [[? ?]|]; [now injection R|discriminate]. }
  intros l l' name h h' (a & b & a' & b' & c & dom & out & c' & dom' & out' & E1 & E2 & L1 & L2) G G'. rewrite (Hl _ _ _ _ _ _ E1 L1) in G. rewrite (Hl _ _ _ _ _ _ E2 L2) in G'.
  apply listener_cases in G, G'. destruct c, c'; destruct G as [[-> ->]|[-> ->]], G' as [[E' ->]|[E' ->]]; try reflexivity; exfalso; vm_compute in E'; discriminate E'.
Qed.
Print Assumptions C115_chat.

(** But in general an event is taken for another one: a to-do list that shows its first item, with a button for ticking it
    off. *)
Definition todo_page (items : list str) : element :=
  Element 0 (bs "div") [] [] [Element 1 (bs "button") [] [Listener (bs "done") (bs "click")] [] (Some (hd [] items)) None] None None.
Definition todo : component unit str (list str) unit nat := {|
  c_new := fun _ _ _ => Some [bs "milk"; bs "bread"; bs "eggs"];
  c_update := fun _ l i _ => Some (filter (fun x => negb (str_eqb i x)) l);
  c_render := fun l => Some (todo_page l, [(bs "done", OnClick (hd [] l))]) |}.
Definition todo_doc : list vnode := fst (v_browse InnerHtml.plain_browser (snd (main_loop todo tt true [(tt, WhoAmI 7)])) []).
Definition done_text : str := bs "{""listener"":""done""}".
Definition a_text {I : Type} (t : str) : unit * mail I nat := (tt, Ws (inl (WsModel.Text t))).
(** The user, who sees "milk", clicks twice (or a double click). Nothing goes wrong on the way; the process receives both
    clicks as they were sent. Each meant: milk is done. The process takes the second for: bread is done. *)
Theorem C115_events_mean_what_the_page_said_refuted : exists n k,
  todo_doc = [n] /\ displays (erase n) (todo_page [bs "milk"; bs "bread"; bs "eggs"]) /\ snd (act (Clicks [0; 0]) [n]) = [done_text] /\
  talks todo tt 7 k /\ g_sent k = [(done_text, Some (bs "milk")); (done_text, Some (bs "milk"))] /\
  g_done k = [Some (bs "milk"); Some (bs "bread")] /\
  exists dom ls out, main_loop todo tt true (g_ms k) = (Looping 7 [bs "eggs"] dom ls, out).
Proof.
  eexists _, (Link [(tt, WhoAmI 7); a_text done_text; a_text done_text] 1 [(done_text, Some (bs "milk")); (done_text, Some (bs "milk"))] 2 [Some (bs "milk"); Some (bs "bread")]).
  split; [vm_compute; reflexivity|]. split. { apply C58_displays_is_shows_cut. change (shows (paint (todo_page [bs "milk"; bs "bread"; bs "eggs"])) (todo_page [bs "milk"; bs "bread"; bs "eggs"])). apply paint_shows. }
  split; [vm_compute; reflexivity|]. split; [|split; [reflexivity|split; [reflexivity|eexists _, _, _; vm_compute; reflexivity]]].
  assert (forall l : list str, means (P := nat) [(bs "done", OnClick (hd [] l))] done_text (Some (hd [] l))) as Hm.
  { intros l. cbn [means]. eapply (asks_click _ _ (bs "done") None); [apply says_iff; vm_compute; reflexivity|reflexivity]. }
  refine (talk_take todo tt 7 [_; _] 1 [(done_text, Some (bs "milk")); (done_text, Some (bs "milk"))] 1 [_] tt done_text (Some (bs "milk")) _ _ _ _ (Some (bs "bread")) _ eq_refl _ _).
  2:{ vm_compute. reflexivity. } 2:{ exact (Hm [bs "bread"; bs "eggs"]). }
  refine (talk_take todo tt 7 [_] 1 [(done_text, Some (bs "milk")); (done_text, Some (bs "milk"))] 0 [] tt done_text (Some (bs "milk")) _ _ _ _ (Some (bs "milk")) _ eq_refl _ _).
  2:{ vm_compute. reflexivity. } 2:{ exact (Hm [bs "milk"; bs "bread"; bs "eggs"]). }
  refine (talk_send todo tt 7 1 [_] 0 [] [_] [] _ _ _ _ done_text (Some (bs "milk")) _ _ _ _).
  2:{ vm_compute. reflexivity. } 2:{ reflexivity. } 2:{ exact (Hm [bs "milk"; bs "bread"; bs "eggs"]). }
  refine (talk_send todo tt 7 1 [] 0 [] [_] [] _ _ _ _ done_text (Some (bs "milk")) _ _ _ _).
  2:{ vm_compute. reflexivity. } 2:{ reflexivity. } 2:{ exact (Hm [bs "milk"; bs "bread"; bs "eggs"]). }
  refine (talk_read todo tt 7 [_] 0 [] 0 [] _ _); [apply talk_start|vm_compute; lia].
Qed.
Print Assumptions C115_events_mean_what_the_page_said_refuted.

(** Not vacuous: a session with a second event sent on a stale page, of a component whose pages change but not their
    handlers. *)
Definition counter : component unit bool (list bool) unit nat := {|
  c_new := fun _ _ _ => Some [];
  c_update := fun _ l i _ => Some (i :: l);
  c_render := fun l => Some (todo_page [dec (N.of_nat (length l))], [(bs "done", OnClick true)]) |}.
Lemma counter_handlers r s t d l l' : both counter tt 7 (Link [(tt, WhoAmI 7); a_text done_text; a_text done_text] r s t d) l l' -> l = [(bs "done", OnClick true)] /\ l' = [(bs "done", OnClick true)].
Proof.
  intros (a & b & a' & b' & c & dom & out & c' & dom' & out' & E1 & E2 & L1 & L2). cbn [g_ms] in E1, E2.
  destruct a as [|[e1 m1] a]; [discriminate L1|]. destruct a' as [|[e2 m2] a']; [discriminate L2|]. cbn [app] in E1, E2. injection E1 as <- <- _. injection E2 as <- <- _.
  apply C60_snapshot_current in L1 as (_ & R1 & _), L2 as (_ & R2 & _). cbn [c_render counter] in R1, R2. injection R1 as _ <-. injection R2 as _ <-. split; reflexivity.
Qed.
Example C115_steady_example : exists k, talks counter tt 7 k /\ steady counter tt 7 k /\ consistent counter tt 7 k /\ g_read k = 1 /\ g_sent k = [(done_text, Some true); (done_text, Some true)] /\ g_done k = [Some true; Some true].
Proof.
  exists (Link [(tt, WhoAmI 7); a_text done_text; a_text done_text] 1 [(done_text, Some true); (done_text, Some true)] 2 [Some true; Some true]).
  assert (means (P := nat) [(bs "done", OnClick true)] done_text (Some true)) as Hm.
  { cbn [means]. eapply (asks_click _ _ (bs "done") None); [apply says_iff; vm_compute; reflexivity|reflexivity]. }
  split; [|split; [|split; [|auto]]].
  - refine (talk_take counter tt 7 [_; _] 1 [(done_text, Some true); (done_text, Some true)] 1 [_] tt done_text (Some true) _ _ _ _ (Some true) _ eq_refl _ _).
    2:{ vm_compute. reflexivity. } 2:{ exact Hm. }
    refine (talk_send counter tt 7 1 [_] 1 [_] [_] [_] _ _ _ _ done_text (Some true) _ _ _ _).
    2:{ vm_compute. reflexivity. } 2:{ reflexivity. } 2:{ exact Hm. }
    refine (talk_take counter tt 7 [_] 1 [(done_text, Some true)] 0 [] tt done_text (Some true) _ _ _ _ (Some true) _ eq_refl _ _).
    2:{ vm_compute. reflexivity. } 2:{ exact Hm. }
    refine (talk_send counter tt 7 1 [] 0 [] [_] [] _ _ _ _ done_text (Some true) _ _ _ _).
    2:{ vm_compute. reflexivity. } 2:{ reflexivity. } 2:{ exact Hm. }
    refine (talk_read counter tt 7 [_] 0 [] 0 [] _ _); [apply talk_start|vm_compute; lia].
  - intros l l' name B. apply counter_handlers in B as [-> ->]. reflexivity.
  - intros l l' name h h' B G G'. apply counter_handlers in B as [-> ->]. congruence.
Qed.
Definition mean {I : Type} (ls : hmap (handler I)) (text : str) : option I :=
  match client_message text with
  | Some (name, payload) => match get name ls with Some (OnClick i) | Some (OnSubmit i) => Some i | Some (OnInput f) => option_map f payload | None => None end
  | None => None
  end.
Lemma mean_ok {I P : Type} (ls : hmap (handler I)) text : means (P := P) ls text (mean ls text).
Proof.
  unfold mean. destruct (client_message text) as [[name payload]|] eqn:Ec; [destruct (get name ls) as [[i|i|f]|] eqn:Eg; [..|]; [| |destruct payload as [v|]|]; cbn [option_map]|]; cbn [means].
  1: eapply asks_click; [apply says_iff; eassumption|exact Eg]. 1: eapply asks_submit; [apply says_iff; eassumption|exact Eg]. 1: eapply asks_input; [apply says_iff; eassumption|exact Eg].
  all: intros j A; inversion A; subst; unsay; congruence.
Qed.
(** And a session of the chat: the user types and presses the button before the page has followed. *)
Definition type_text : str := bs "{""listener"":""set_username"",""payload"":{""value"":""ann""}}".
Definition enter_text : str := bs "{""listener"":""initialize_username""}".
Definition typed_ann : linput := BrowserRequest (UpdateInitializeUsernameTextField (bs "ann")).
Example C115_chat_example : exists k, talks chat_component tt 7%N k /\ g_read k = 1 /\
  g_sent k = [(type_text, Some typed_ann); (enter_text, Some (BrowserRequest InitializeUser)); (enter_text, Some (BrowserRequest InitializeUser))] /\
  g_done k = [Some typed_ann; Some (BrowserRequest InitializeUser); None].
Proof.
  set (start := (None, WhoAmI 7%N) : option linput * mail linput N). set (r1 := (None, Ws (inl (WsModel.Text type_text))) : option linput * mail linput N).
  set (answer := Some (UserRegistered 0 (bs "ann"))). set (r2 := (answer, Ws (inl (WsModel.Text enter_text))) : option linput * mail linput N). set (r3 := (None, Ws (inl (WsModel.Text enter_text))) : option linput * mail linput N).
  exists (Link [start; r1; r2; r3] 1 [(type_text, Some typed_ann); (enter_text, Some (BrowserRequest InitializeUser)); (enter_text, Some (BrowserRequest InitializeUser))] 3 [Some typed_ann; Some (BrowserRequest InitializeUser); None]).
  split; [|auto].
  assert (forall (ls : hmap (handler linput)) text o, mean ls text = o -> means (P := N) ls text o) as Hm by (intros ls text o <-; apply mean_ok).
  refine (talk_take chat_component tt 7%N [start; r1; r2] 1 [(type_text, Some typed_ann); (enter_text, Some (BrowserRequest InitializeUser)); (enter_text, Some (BrowserRequest InitializeUser))] 2 [_; _] None enter_text _ (Initialized (bs "ann") 0 [] []) _ _ _ None _ eq_refl _ _).
  2:{ vm_compute. reflexivity. } 2:{ apply Hm. vm_compute. reflexivity. }
  refine (talk_take chat_component tt 7%N [start; r1] 1 [(type_text, Some typed_ann); (enter_text, Some (BrowserRequest InitializeUser)); (enter_text, Some (BrowserRequest InitializeUser))] 1 [_] answer enter_text _ (Uninitialized (bs "ann")) _ _ _ (Some _) _ eq_refl _ _).
  2:{ vm_compute. reflexivity. } 2:{ apply Hm. vm_compute. reflexivity. }
  refine (talk_take chat_component tt 7%N [start] 1 [(type_text, Some typed_ann); (enter_text, Some (BrowserRequest InitializeUser)); (enter_text, Some (BrowserRequest InitializeUser))] 0 [] None type_text _ (Uninitialized []) _ _ _ (Some _) _ eq_refl _ _).
  2:{ vm_compute. reflexivity. } 2:{ apply Hm. vm_compute. reflexivity. }
  refine (talk_send chat_component tt 7%N 1 [_; _] 0 [] [start] [] _ _ _ _ _ (Some _) _ _ _ _).
  2:{ vm_compute. reflexivity. } 2:{ reflexivity. } 2:{ apply Hm. vm_compute. reflexivity. }
  refine (talk_send chat_component tt 7%N 1 [_] 0 [] [start] [] _ _ _ _ _ (Some _) _ _ _ _).
  2:{ vm_compute. reflexivity. } 2:{ reflexivity. } 2:{ apply Hm. vm_compute. reflexivity. }
  refine (talk_send chat_component tt 7%N 1 [] 0 [] [start] [] _ _ _ _ _ (Some _) _ _ _ _).
  2:{ vm_compute. reflexivity. } 2:{ reflexivity. } 2:{ apply Hm. vm_compute. reflexivity. }
  refine (talk_read chat_component tt 7%N [_] 0 [] 0 [] _ _); [apply talk_start|vm_compute; lia].
Qed.
