(** Proofs about the chat page and the chat component. *)
From Verif Require Import Base HMap Num Json DomModel DomSpec DomProofs DomProofs2 DomProofs3 DomProofs4 HtmlModel
  ClientModel ClientSpec ClientProofs ClientProofs2 ComponentModel JsonSpec JsonProofs ComponentSpec ComponentProofs ComponentProofs2 PropClient
  ChatModel ChatSpec ChatProofs.
From Verif Require WsModel.
From Coq Require Import Lia.

(** The pages as elements. *)
Fixpoint row_elements (i : N) (ms : list chat_message) : list element :=
  match ms with
  | [] => []
  | m :: ms' => Element i (bs "div") [] []
      [Element (i + 1) (bs "h3") [] [] [] (Some (bs "Message from " ++ cm_username m ++ bs " (user id: " ++ dec (cm_sender m) ++ bs ")")) None;
       Element (i + 2) (bs "p") [] [] [] (Some (cm_contents m)) None] None None :: row_elements (i + 3) ms'
  end.
Definition uninit_element (username : str) : element :=
  Element 0 (bs "div") [] []
    [Element 1 (bs "div") [] []
       [Element 2 (bs "input") [(bs "type", bs "text"); (bs "placeholder", bs "username..."); (bs "value", username)]
          [Listener (bs "set_username") (bs "input")] [] None None] None None;
     Element 3 (bs "div") [] []
       [Element 4 (bs "input") [(bs "type", bs "submit")] [Listener (bs "initialize_username") (bs "click")] [] None None] None None] None None.
Definition init_element (username : str) (id : N) (ms : list chat_message) (composing : str) : element :=
  Element 0 (bs "div") [] []
    (Element 1 (bs "div") [] []
       [Element 2 (bs "p") [] [] [] (Some (bs "Hello " ++ username ++ bs " (user_id: " ++ dec id ++ bs ")!")) None;
        Element 3 (bs "div") [] []
          [Element 4 (bs "input") [(bs "value", composing); (bs "type", bs "text"); (bs "placeholder", bs "send a new message...")]
             [Listener (bs "update_message_contents") (bs "input")] [] None None] None None;
        Element 5 (bs "div") [] []
          [Element 6 (bs "input") [(bs "type", bs "submit"); (bs "value", bs "send message")]
             [Listener (bs "submit_message") (bs "click")] [] None None] None None] None None
     :: row_elements 7 ms) None None.
Definition chat_element (c : chat) : element :=
  match c with Uninitialized u => uninit_element u | Initialized u id ms comp => init_element u id ms comp end.

Lemma rows_into ms : forall i, into_list (map message_row ms) i = Some (row_elements i ms, (i + 3 * N.of_nat (length ms))%N).
Proof.
  induction ms as [|m ms IH]; intros i; cbn [map into_list].
  - cbn. do 2 f_equal. lia.
  - assert (into_element (message_row m) i = Some (Element i (bs "div") [] []
      [Element (i + 1) (bs "h3") [] [] [] (Some (bs "Message from " ++ cm_username m ++ bs " (user id: " ++ dec (cm_sender m) ++ bs ")")) None;
       Element (i + 1 + 1) (bs "p") [] [] [] (Some (cm_contents m)) None] None None, (i + 1 + 1 + 1)%N)) as -> by reflexivity.
    replace (i + 1 + 1 + 1)%N with (i + 3)%N by lia. replace (i + 1 + 1)%N with (i + 2)%N by lia. rewrite IH. cbn [row_elements length]. do 2 f_equal. lia.
Qed.
Definition chat_size (c : chat) : N := match c with Uninitialized _ => 5 | Initialized _ _ ms _ => 7 + 3 * N.of_nat (length ms) end.
Lemma chat_into c : into_element (chat_page c) 0 = Some (chat_element c, chat_size c).
Proof.
  destruct c as [u|u id ms comp]; [reflexivity|]. cbn [chat_page chat_element chat_size].
  assert (exists w, init_page u id ms comp = Wrapped KDiv [] [] [] (w :: map message_row ms) /\
    into_element w 1 = Some (hd (uninit_element u) (el_children (init_element u id [] comp)), 7%N)) as (w & -> & Hw)
    by (eexists; split; reflexivity).
  rewrite into_element_eq. cbn [arm_of arm_children into_list]. change (0 + 1)%N with 1%N. rewrite Hw, rows_into. reflexivity.
Qed.
Lemma chat_render c : c_render chat_component c = Some (chat_element c, chat_listeners c).
Proof. cbn [c_render chat_component]. now rewrite chat_into. Qed.
Lemma chat_numbered c : numbered 0 (chat_element c) (chat_size c) /\ unkeyed (chat_element c).
Proof. apply (into_numbered _ _ _ _ (chat_into c)). Qed.
Lemma wok k t ls (a : hmap str) cs : nodupb (map fst a) = true -> Forall wrapped_ok cs -> wrapped_ok (Wrapped k a t ls cs).
Proof. intros Ha Hc. constructor; [|exact Hc]. now apply nodupb_ok. Qed.
Ltac woks := repeat first [apply wok; [reflexivity|] | apply Forall_nil | apply Forall_cons].
Lemma chat_wrapped_ok c : wrapped_ok (chat_page c).
Proof.
  destruct c as [u|u id ms comp].
  - cbn [chat_page uninit_page add_child wrap app add_listener]. woks.
  - assert (exists w, init_page u id ms comp = Wrapped KDiv [] [] [] (w :: map message_row ms) /\ wrapped_ok w) as (w & Ew & Hok).
    { eexists; split; [reflexivity|]. woks. }
    cbn [chat_page]. rewrite Ew. apply wok; [reflexivity|]. constructor; [exact Hok|]. apply Forall_forall. intros x Hx. apply in_map_iff in Hx as (m & <- & _).
    cbn [message_row add_child wrap app]. woks.
Qed.
Lemma chat_proper max c : (chat_size c <= max + 1)%N -> proper max (chat_element c).
Proof. intros H. eapply into_proper; [apply chat_wrapped_ok|apply chat_into|exact H]. Qed.

(** What an update does to the state. *)
Inductive follows : chat -> chat -> Prop :=
| f_typed u u' : follows (Uninitialized u) (Uninitialized u')
| f_registered u u' id : follows (Uninitialized u) (Initialized u' id [] [])
| f_changed u u' id ms ms' comp comp' : length ms <= length ms' -> follows (Initialized u id ms comp) (Initialized u' id ms' comp').
Lemma update1_follows a c i c' : chat_update1 a c i = Some c' -> follows c c'.
Proof.
  destruct c as [u|u id ms comp], i as [i v|v|m|[v| |v|]|]; cbn [chat_update1]; try discriminate; try (intros [= <-]; constructor; rewrite ?app_length; lia).
  destruct a as [[]|]; try discriminate. intros [= <-]. constructor.
Qed.
Lemma update_follows a c i c' : chat_update a c i = Some c' -> follows c c'.
Proof.
  unfold chat_update. destruct c as [u|u id ms comp]; [apply update1_follows|]. destruct i as [| | |[]|]; try apply update1_follows. destruct a; [apply update1_follows|discriminate].
Qed.
Lemma follows_size c c' : follows c c' -> (chat_size c <= chat_size c')%N.
Proof. destruct 1; cbn [chat_size]; lia. Qed.
Lemma row_fits ms : forall i ms', fits_list (row_elements i ms) (row_elements i ms').
Proof.
  induction ms as [|m ms IH]; intros i ms'; [constructor|]. destruct ms' as [|m' ms']; [constructor|]. cbn [row_elements]. constructor; [|apply IH].
  apply FitsSame; [reflexivity|]. cbn [el_children]. constructor; [apply FitsSame; [reflexivity|constructor]|]. constructor; [apply FitsSame; [reflexivity|constructor]|constructor].
Qed.
Lemma follows_fits c c' : follows c c' -> fits (chat_element c) (chat_element c').
Proof.
  assert (forall a b, el_id a = el_id b -> el_children a = [] -> fits a b) as Hl by (intros a b Hi Hc; apply FitsSame; [exact Hi|rewrite Hc; constructor]).
  destruct 1; (apply FitsSame; [reflexivity|]); cbn [chat_element el_children uninit_element init_element].
  - constructor; [apply FitsSame; [reflexivity|]|constructor; [apply FitsSame; [reflexivity|]|constructor]]; (constructor; [now apply Hl|constructor]).
  - cbn [row_elements]. constructor; [apply FitsSame; [reflexivity|]|apply FitsDrop]. constructor; [now apply Hl|constructor].
  - constructor; [|apply row_fits]. apply FitsSame; [reflexivity|]. cbn [el_children]. constructor; [now apply Hl|].
    constructor; [apply FitsSame; [reflexivity|]; constructor; [now apply Hl|constructor]|].
    constructor; [apply FitsSame; [reflexivity|]; constructor; [now apply Hl|constructor]|constructor].
Qed.
Lemma row_match ms : forall i ms', matched_list browser_pair (row_elements i ms) (row_elements i ms').
Proof.
  induction ms as [|m ms IH]; intros i ms'; [constructor|]. destruct ms' as [|m' ms']; [constructor|]. cbn [row_elements]. constructor; [|apply IH].
  constructor; [split; [now left|split; now left]|]. cbn [el_children].
  constructor; [constructor; [|constructor]|constructor; [constructor; [|constructor]|constructor]]; (split; [now left|split; [|now left]]; right; left; eexists; split; reflexivity).
Qed.
Lemma follows_match c c' : follows c c' -> matched browser_pair (chat_element c) (chat_element c').
Proof.
  assert (forall a b, el_name a = el_name b -> el_text a = el_text b -> el_listeners a = el_listeners b -> browser_pair a b) as Hp by (intros; repeat split; now left).
  assert (forall a b, el_name a = el_name b -> el_text a = el_text b -> el_listeners a = el_listeners b -> el_children a = [] -> matched browser_pair a b) as Hl
    by (intros a b ? ? ? Hc; constructor; [now apply Hp|rewrite Hc; constructor]).
  destruct 1; (constructor; [now apply Hp|]); cbn [chat_element el_children uninit_element init_element].
  - constructor; [|constructor; [|constructor]]; (constructor; [now apply Hp|]); cbn [el_children]; (constructor; [now apply Hl|constructor]).
  - cbn [row_elements]. constructor; [|constructor]. constructor; [now apply Hp|]. cbn [el_children]. constructor; [|constructor]. constructor; [|constructor].
    unfold browser_pair. cbn. split; [right; split; [discriminate|split; [right; discriminate|left; split; [reflexivity|now left]]]|]. split; [right; left; eauto|right; constructor].
  - constructor; [|apply row_match]. constructor; [now apply Hp|]. cbn [el_children]. constructor.
    + constructor; [|constructor]. unfold browser_pair. cbn. split; [now left|]. split; [right; left; eauto|now left].
    + constructor; [|constructor; [|constructor]]; (constructor; [now apply Hp|]); cbn [el_children]; (constructor; [now apply Hl|constructor]).
Qed.
Lemma follows_safe c c' : follows c c' -> safe_with browser_pair (chat_element c) (chat_element c').
Proof.
  intros H. destruct (chat_numbered c), (chat_numbered c'). eapply fits_safe_with; eauto using follows_fits, follows_match.
Qed.

(** Lives of the chat component. *)
Definition chat_pages : list chat -> list element := map chat_element.
Lemma chat_pages_eq cs doms : pages chat_component cs doms -> doms = chat_pages cs.
Proof. induction 1 as [|c d cs doms (l & R) F IH]; [reflexivity|]. rewrite chat_render in R. injection R as <- _. cbn [chat_pages map]. now f_equal. Qed.
Lemma chat_lives p c ms cs c' : lives chat_component p c ms cs c' ->
  (chat_size c <= chat_size c')%N /\ forall max, (chat_size c' <= max + 1)%N ->
  linked (fun a b => proper max a /\ proper max b /\ safe_with browser_pair a b) (chat_element c) (chat_pages cs).
Proof.
  induction 1 as [c|c d0 l0 e m i c1 ms cs c2 R0 Ha Hu L IH|c d0 l0 e m ms cs c2 R0 Hn Hc Hw L IH].
  - split; [lia|]. intros. exact Logic.I.
  - cbn [c_update chat_component] in Hu. apply update_follows in Hu. destruct IH as [IH1 IH2]. pose proof (follows_size _ _ Hu). split; [lia|].
    intros max Hm. cbn [chat_pages map linked]. split; [|now apply IH2]. split; [apply chat_proper; lia|]. split; [apply chat_proper; lia|now apply follows_safe].
  - exact IH.
Qed.

(** In the browser. *)
Lemma plus_free_literal s : plus_freeb s = true -> plus_free s.
Proof. apply plus_freeb_ok. Qed.
Definition field_plain (c : chat) : Prop := match c with Uninitialized u => plus_free u | Initialized _ _ _ comp => plus_free comp end.
Lemma clean_one i n a l cs t k : clean_nameb n = true -> Forall (fun kv => clean_nameb (fst kv) && negb (str_eqb (fst kv) attr_id) = true /\ plus_free (snd kv)) a ->
  forallb (fun l => plus_freeb (l_name l) && plus_freeb (l_event l)) l = true -> Forall clean cs -> clean (Element i n a l cs t k).
Proof.
  intros H1 H2 H3 H4. constructor; [|exact H4]. cbn [el_name el_attrs el_listeners]. split; [now apply clean_nameb_ok|]. split.
  - apply Forall_forall. intros kv Hk. rewrite Forall_forall in H2. apply H2 in Hk as [Hk Hp]. apply andb_true_iff in Hk as [K1 K2].
    split; [now apply clean_nameb_ok|]. split; [|exact Hp]. intros E. apply str_eqb_eq in E. rewrite E in K2. discriminate.
  - apply Forall_forall. intros x Hx. rewrite forallb_forall in H3. apply H3 in Hx. apply andb_true_iff in Hx as [L1 L2]. split; now apply plus_freeb_ok.
Qed.
Ltac cleans := repeat first [assumption | apply plus_freeb_ok; reflexivity | split; [reflexivity|] | apply clean_one; [reflexivity| |reflexivity|] | apply Forall_nil | apply Forall_cons].
Lemma chat_clean c : field_plain c -> clean (chat_element c).
Proof.
  intros H. destruct c as [u|u id ms comp]; cbn [field_plain] in H; cbn [chat_element].
  - unfold uninit_element. cleans.
  - unfold init_element. apply clean_one; [reflexivity|constructor|reflexivity|]. apply Forall_cons; [cleans|]. generalize 7%N.
    induction ms as [|m ms IH]; intros i; [constructor|]. cbn [row_elements]. apply Forall_cons; [cleans|apply IH].
Qed.
Lemma update1_plain a c i c' : chat_update1 a c i = Some c' -> field_plain c ->
  (forall v, i = BrowserRequest (UpdateInitializeUsernameTextField v) \/ i = BrowserRequest (UpdateMessageContentsTextField v) -> plus_free v) -> field_plain c'.
Proof.
  intros E P Hv. destruct c as [u|u id ms comp], i as [i v|v|m|[v| |v|]|]; cbn [chat_update1] in E; try discriminate;
    try (injection E as <-; cbn [field_plain] in *; try exact P; try (now intros []); try (apply Hv; auto)).
  destruct a as [[]|]; try discriminate. injection E as <-. now intros [].
Qed.
Lemma update_plain a c i c' : chat_update a c i = Some c' -> field_plain c ->
  (forall v, i = BrowserRequest (UpdateInitializeUsernameTextField v) \/ i = BrowserRequest (UpdateMessageContentsTextField v) -> plus_free v) ->
  (forall v, a <> Some (BrowserRequest v)) -> field_plain c'.
Proof.
  unfold chat_update. intros E P Hv Ha. destruct c as [u|u id ms comp]; [eapply update1_plain; eauto|]. destruct i as [| | |[]|]; try (eapply update1_plain; eauto; fail).
  destruct a as [res|]; [|discriminate]. eapply update1_plain; eauto. intros v [->| ->]; exfalso; eapply Ha; reflexivity.
Qed.
Lemma listener_cases c name h : get name (chat_listeners c) = Some h ->
  match c with
  | Uninitialized _ => (name = bs "set_username" /\ h = OnInput (fun v => BrowserRequest (UpdateInitializeUsernameTextField v))) \/
                       (name = bs "initialize_username" /\ h = OnClick (BrowserRequest InitializeUser))
  | Initialized _ _ _ _ => (name = bs "update_message_contents" /\ h = OnInput (fun v => BrowserRequest (UpdateMessageContentsTextField v))) \/
                       (name = bs "submit_message" /\ h = OnClick (BrowserRequest SendTextMessage))
  end.
Proof.
  destruct c; cbn [chat_listeners get];
    (destruct (str_eqb name _) eqn:E1; [apply str_eqb_eq in E1; intros H; injection H as H; subst h; left; auto|clear E1]);
    (destruct (str_eqb name _) eqn:E2; [apply str_eqb_eq in E2; intros H; injection H as H; subst h; right; auto|discriminate]).
Qed.
(** What a chat process is asked to do. *)
Lemma chat_asks c (m : mail linput N) i : asks (chat_listeners c) m i ->
  (m = Input i) \/ exists text name payload, m = Ws (inl (WsModel.Text text)) /\ says text name payload /\
  match c with
  | Uninitialized _ => (name = bs "set_username" /\ exists v, payload = Some v /\ i = BrowserRequest (UpdateInitializeUsernameTextField v)) \/
                       (name = bs "initialize_username" /\ i = BrowserRequest InitializeUser)
  | Initialized _ _ _ _ => (name = bs "update_message_contents" /\ exists v, payload = Some v /\ i = BrowserRequest (UpdateMessageContentsTextField v)) \/
                       (name = bs "submit_message" /\ i = BrowserRequest SendTextMessage)
  end.
Proof.
  intros H. destruct H as [i|text name payload call Hm Hg|text name payload call Hm Hg|text name v call Hm Hg]; [now left|right..].
  - exists text, name, payload. split; [reflexivity|]. split; [exact Hm|]. apply listener_cases in Hg. destruct c; (destruct Hg as [[-> [=]]|[-> [= ->]]]; right; auto).
  - exists text, name, payload. split; [reflexivity|]. split; [exact Hm|]. apply listener_cases in Hg. destruct c; (destruct Hg as [[-> [=]]|[-> [=]]]).
  - exists text, name, (Some v). split; [reflexivity|]. split; [exact Hm|]. apply listener_cases in Hg. destruct c; (destruct Hg as [[-> [= ->]]|[-> [=]]]; left; eauto).
Qed.
Lemma chat_lives_plain p c ms cs c' : lives chat_component p c ms cs c' -> field_plain c ->
  Forall (fun em => typed_plainly (snd em) /\ forall v, fst em <> Some (BrowserRequest v)) ms ->
  Forall field_plain cs.
Proof.
  induction 1 as [c|c d0 l0 e m i c1 ms cs c2 R0 Ha Hu L IH|c d0 l0 e m ms cs c2 R0 Hn Hc Hw L IH]; intros P F.
  - constructor.
  - rewrite chat_render in R0. injection R0 as <- <-. inversion F as [|? ? [T1 T2] F2]; subst. cbn [c_update chat_component fst snd] in *.
    assert (field_plain c1) as P1; [|constructor; [exact P1|now apply IH]]. eapply update_plain; eauto.
    apply chat_asks in Ha as [->|(text & name & payload & -> & Hm & Hi)].
    + cbn [typed_plainly] in T1. intros v [->| ->]; destruct T1.
    + cbn [typed_plainly] in T1. intros v Hv. apply (T1 name). assert (payload = Some v) as <-; [|exact Hm].
      destruct c, Hi as [(_ & v0 & -> & ->)|(_ & ->)], Hv as [Hv|Hv]; congruence.
  - inversion F; subst. now apply IH.
Qed.

(** Every listener of the page has its handler. *)
Lemma chat_wired c : wired (chat_listeners c) (chat_element c).
Proof.
  unfold wired. destruct c as [u|u id ms comp]; cbn [chat_element].
  - unfold uninit_element. repeat first [apply Forall_nil|apply Forall_cons|apply Every; cbn [el_listeners el_children]]; cbn [l_name l_event]; eexists; split; reflexivity.
  - unfold init_element. apply Every; cbn [el_listeners el_children]; [constructor|]. apply Forall_cons.
    + repeat first [apply Forall_nil|apply Forall_cons|apply Every; cbn [el_listeners el_children]]; cbn [l_name l_event]; eexists; split; reflexivity.
    + generalize 7%N. induction ms as [|m ms IH]; intros i; [constructor|]. cbn [row_elements]. apply Forall_cons; [|apply IH].
      repeat first [apply Forall_nil|apply Forall_cons|apply Every; cbn [el_listeners el_children]].
Qed.

(** It does not panic. *)
Lemma chat_sound p : sound chat_component tt p (fun _ => True) ordinary.
Proof.
  split; [intros e; exists chat_new; now split|]. split; [intros c _; rewrite chat_render; eauto|].
  intros e m c d l i _ R A Ha. rewrite chat_render in R. injection R as <- <-.
  assert (exists c', chat_update e c i = Some c') as (c' & Hc).
  { apply chat_asks in Ha as [->|(text & name & payload & -> & Hm & Hi)]; unfold ordinary in A; cbn [fst snd] in A.
    - destruct A as (msg & ->). destruct c; eexists; reflexivity.
    - destruct (A _ _ Hm) as [A1 A2]. destruct c as [u|u id ms comp], Hi as [(-> & v & _ & ->)|(-> & ->)].
      + eexists. reflexivity.
      + destruct (A1 eq_refl) as (id & v & ->). eexists. reflexivity.
      + eexists. reflexivity.
      + destruct (A2 eq_refl) as (msg & ->). eexists. reflexivity. }
  exists c'. split; [exact Hc|]. split; [exact Logic.I|]. intros d' l' R'. rewrite chat_render in R'. injection R' as <- _.
  set (max := (chat_size c + chat_size c')%N).
  destruct (diff_applies max (chat_element c) (chat_element c')) as (os & Ho & _).
  - apply chat_proper. lia.
  - apply chat_proper. lia.
  - eapply safe_with_safe. apply follows_safe. eapply update_follows; eauto.
  - congruence.
Qed.
