(** A chat user's session: the invariant. *)
From Verif Require Import Base HMap Num Json DomModel DomSpec DomProofs DomProofs2 DomProofs3 DomProofs4 HtmlModel ClientModel ClientSpec ClientProofs ClientProofs2 BrowserProofs
  ComponentModel JsonSpec JsonProofs ComponentSpec ComponentProofs ComponentProofs2 ChatModel ChatSpec ChatProofs2 PropBrowser UserModel UserProofs UserSpec UserProofs2 UserProofs3 DeskSpec DeskProofs DeskProofs2.
From Verif Require WsModel InnerHtml.
From Coq Require Import Lia.

(** What the texts sent amount to: the last name and the last message typed, and those at each click. *)
Record view := View { vn : str; vc : str; vr : list str; vs : list str }.
Definition vstep (v : view) (u : utext) : view :=
  match u with
  | UName t => View t (vc v) (vr v) (vs v) | UMessage t => View (vn v) t (vr v) (vs v)
  | UJoin => View (vn v) (vc v) (vr v ++ [vn v]) (vs v) | USend => View (vn v) (vc v) (vr v) (vs v ++ [vc v])
  end.
Definition view_of (us : list utext) : view := fold_left vstep us (View [] [] [] []).
Lemma view_snoc us u : view_of (us ++ [u]) = vstep (view_of us) u.
Proof. unfold view_of. now rewrite fold_left_app. Qed.
Definition early (u : utext) : Prop := match u with UName _ | UJoin => True | _ => False end.
Definition not_name (u : utext) : Prop := match u with UName _ => False | _ => True end.
Definition not_message (u : utext) : Prop := match u with UMessage _ => False | _ => True end.
Lemma no_name us : Forall not_name us -> vn (view_of us) = [].
Proof.
  induction us as [|u us IH] using rev_ind; intros F; [reflexivity|]. apply Forall_app in F as [F1 F2]. inversion F2; subst. rewrite view_snoc. destruct u; cbn [vstep vn]; auto. contradiction.
Qed.
Lemma no_message us : Forall not_message us -> vc (view_of us) = [].
Proof.
  induction us as [|u us IH] using rev_ind; intros F; [reflexivity|]. apply Forall_app in F as [F1 F2]. inversion F2; subst. rewrite view_snoc. destruct u; cbn [vstep vc]; auto. contradiction.
Qed.
Lemma early_not_message us : Forall early us -> Forall not_message us.
Proof. apply Forall_impl. now intros []. Qed.
Lemma early_no_sends us : Forall early us -> vs (view_of us) = [].
Proof.
  induction us as [|u us IH] using rev_ind; intros F; [reflexivity|]. apply Forall_app in F as [F1 F2]. inversion F2; subst. rewrite view_snoc. destruct u; cbn [vstep vs]; auto. contradiction.
Qed.
Lemma view_more l1 l2 : (exists m, vs (view_of (l1 ++ l2)) = vs (view_of l1) ++ m) /\ (exists m, vr (view_of (l1 ++ l2)) = vr (view_of l1) ++ m).
Proof.
  induction l2 as [|u l2 [(m1 & H1) (m2 & H2)]] using rev_ind; [rewrite app_nil_r; split; exists []; now rewrite app_nil_r|]. rewrite app_assoc, view_snoc.
  split; destruct u; cbn [vstep vs vr]; rewrite ?H1, ?H2, <- ?app_assoc; eauto.
Qed.

Section Inv.
Context (reparse : str -> str -> list node -> list node) (Hre : InnerHtml.standard reparse) (p : N).
Definition first_ops : list op := create_from_scratch (chat_element chat_new) None.
Definition alive (ms : list (option linput * mail linput N)) (cs : list chat) (out : list str) : Prop :=
  chat_process p ms = (Looping p (last cs chat_new) (chat_element (last cs chat_new)) (chat_listeners (last cs chat_new)), out) /\
  length out = S (length cs) /\ nth_error out 0 = Some (wire first_ops) /\
  forall j c1 c2, nth_error (chat_new :: cs) j = Some c1 -> nth_error cs j = Some c2 ->
    follows c1 c2 /\ exists os, diff (chat_element c1) (Some (chat_element c2)) = Some os /\ nth_error out (S j) = Some (wire os).
Lemma alive_start : alive [] [] [wire first_ops].
Proof. split; [reflexivity|]. split; [reflexivity|]. split; [reflexivity|]. intros j c1 c2 _ H. destruct j; discriminate. Qed.
Lemma last_snoc {A} (l : list A) x d : last (l ++ [x]) d = x.
Proof. induction l as [|y l IH]; [reflexivity|]. cbn [app]. destruct (l ++ [x]) eqn:E; [destruct l; discriminate|]. exact IH. Qed.
Lemma nth_last (cs : list chat) : nth_error (chat_new :: cs) (length cs) = Some (last cs chat_new).
Proof.
  induction cs as [|x cs _] using rev_ind; [reflexivity|]. rewrite last_snoc, app_length. cbn [length]. rewrite Nat.add_comm. cbn [Nat.add nth_error]. rewrite nth_error_app2, Nat.sub_diag by lia. reflexivity.
Qed.
Lemma alive_idle ms cs out e m : alive ms cs out -> (forall i, ~ asks (chat_listeners (last cs chat_new)) m i) -> ~ closing m -> ~ identity m -> alive (ms ++ [(e, m)]) cs out.
Proof.
  intros (H1 & H2 & H3 & H4) Hn Hc Hi. split; [|auto]. unfold chat_process, main_loop in *. rewrite app_comm_cons, run_app, H1. cbn [run receive fst snd]. rewrite iteration_idle by assumption. cbn [run]. now rewrite !app_nil_r.
Qed.
Lemma alive_update ms cs out e m i c1 : alive ms cs out -> asks (chat_listeners (last cs chat_new)) m i -> chat_update e (last cs chat_new) i = Some c1 ->
  exists os, alive (ms ++ [(e, m)]) (cs ++ [c1]) (out ++ [wire os]).
Proof.
  intros (H1 & H2 & H3 & H4) Ha Hu. pose proof (update_follows _ _ _ _ Hu) as Hf. set (c := last cs chat_new) in *.
  set (max := (chat_size c + chat_size c1)%N). destruct (diff_applies max (chat_element c) (chat_element c1)) as (os & Ho & _).
  { apply chat_proper. lia. } { apply chat_proper. lia. } { eapply safe_with_safe. now apply follows_safe. }
  exists os. split; [|split; [|split]].
  - unfold chat_process, main_loop in *. rewrite app_comm_cons, run_app, H1. cbn [run receive fst snd]. rewrite (iteration_asks _ _ _ _ _ _ _ _ Ha). unfold update_and_diff, perform_diff.
    change (c_update chat_component e c i p) with (chat_update e c i). rewrite Hu, chat_render, Ho. cbn [run]. rewrite last_snoc. reflexivity.
  - rewrite !app_length, H2. cbn [length]. lia.
  - rewrite nth_error_app1 by lia. exact H3.
  - intros j x1 x2 E1 E2. destruct (Nat.lt_trichotomy j (length cs)) as [L|[L|L]].
    + rewrite nth_error_app1 in E2 by exact L. assert (nth_error (chat_new :: cs) j = Some x1) as E1'.
      { rewrite app_comm_cons, nth_error_app1 in E1 by (cbn [length]; lia). exact E1. }
      destruct (H4 j x1 x2 E1' E2) as (F & os' & D & O). split; [exact F|]. exists os'. split; [exact D|]. rewrite nth_error_app1 by lia. exact O.
    + subst j. rewrite nth_error_app2, Nat.sub_diag in E2 by lia. injection E2 as <-. rewrite app_comm_cons, nth_error_app1, nth_last in E1 by (cbn [length]; lia). injection E1 as <-.
      split; [exact Hf|]. exists os. split; [exact Ho|]. rewrite nth_error_app2 by lia. replace (S (length cs) - length out) with 0 by lia. reflexivity.
    + assert (j < length (cs ++ [c1])) as Hlt by (apply nth_error_Some; congruence). rewrite app_length in Hlt. cbn [length] in Hlt. lia.
Qed.

(** What a text asks for. *)
Lemma u_says u : says (u_text u) (match u with UName _ => bs "set_username" | UJoin => bs "initialize_username" | UMessage _ => bs "update_message_contents" | USend => bs "submit_message" end)
  (match u with UName t | UMessage t => Some t | _ => None end).
Proof.
  destruct u as [t| |t|]; apply says_iff; cbn [u_text].
  - exact (client_message_value (bs "set_username") t).
  - exact (client_message_listener (bs "initialize_username")).
  - exact (client_message_value (bs "update_message_contents") t).
  - exact (client_message_listener (bs "submit_message")).
Qed.
Lemma says_fun text n1 o1 n2 o2 : says text n1 o1 -> says text n2 o2 -> n1 = n2 /\ o1 = o2.
Proof. intros H1 H2. apply says_iff in H1, H2. rewrite H1 in H2. injection H2. auto. Qed.
Definition u_mail (u : utext) : mail linput N := Ws (inl (WsModel.Text (u_text u))).
Lemma u_idle c u : match c, u with Uninitialized _, (UMessage _ | USend) => True | Initialized _ _ _ _, (UName _ | UJoin) => True | _, _ => False end -> forall i, ~ asks (chat_listeners c) (u_mail u) i.
Proof.
  intros H i Ha. apply chat_asks in Ha as [Ha|(text & name & payload & Ht & Hs & Hc)]; [discriminate|]. injection Ht as <-. destruct (says_fun _ _ _ _ _ (u_says u) Hs) as [<- <-].
  destruct c, u; try contradiction; destruct Hc as [[E _]|[E _]]; discriminate.
Qed.
Definition served (c : chat) (e : option linput) (u : utext) : option (linput * chat) :=
  match c, u with
  | Uninitialized _, UName t => Some (BrowserRequest (UpdateInitializeUsernameTextField t), Uninitialized t)
  | Uninitialized _, UJoin => match e with Some (UserRegistered id v) => Some (BrowserRequest InitializeUser, Initialized v id [] []) | _ => None end
  | Initialized n id ms _, UMessage t => Some (BrowserRequest (UpdateMessageContentsTextField t), Initialized n id ms t)
  | Initialized n id ms comp, USend => match e with Some (ReceiveMessage m) => Some (BrowserRequest SendTextMessage, Initialized n id (ms ++ [m]) comp) | _ => None end
  | _, _ => None
  end.
Lemma u_served c e u i c1 : served c e u = Some (i, c1) -> asks (chat_listeners c) (u_mail u) i /\ chat_update e c i = Some c1.
Proof.
  destruct c as [n|n id ms comp], u as [t| |t|]; cbn [served]; try discriminate.
  - intros [= <- <-]. split; [|reflexivity]. eapply (asks_input _ _ _ _ (fun v => BrowserRequest (UpdateInitializeUsernameTextField v))); [exact (u_says (UName t))|reflexivity].
  - destruct e as [[id v| | | |]|]; try discriminate. intros [= <- <-]. split; [|reflexivity]. eapply asks_click; [exact (u_says UJoin)|reflexivity].
  - intros [= <- <-]. split; [|reflexivity]. eapply (asks_input _ _ _ _ (fun v => BrowserRequest (UpdateMessageContentsTextField v))); [exact (u_says (UMessage t))|reflexivity].
  - destruct e as [[| |m| |]|]; try discriminate. intros [= <- <-]. split; [|reflexivity]. eapply asks_click; [exact (u_says USend)|reflexivity].
Qed.
Lemma u_answered ms cs out e u : alive ms cs out -> server_answers p ms e (u_text u) ->
  match last cs chat_new, u with
  | Uninitialized _, UJoin => exists id v, e = Some (UserRegistered id v)
  | Initialized _ _ _ _, USend => exists m, e = Some (ReceiveMessage m)
  | _, _ => True
  end.
Proof.
  intros (A & _) H. destruct (last cs chat_new) as [n|n id ml comp], u as [t| |t|]; try exact Logic.I.
  - refine (H _ _ _ _ (BrowserRequest InitializeUser) _ A _ eq_refl). eapply asks_click; [exact (u_says UJoin)|reflexivity].
  - refine (H _ _ _ _ (BrowserRequest SendTextMessage) _ A _ eq_refl). eapply asks_click; [exact (u_says USend)|reflexivity].
Qed.
Lemma u_open u : ~ closing (u_mail u) /\ ~ identity (u_mail u).
Proof. split; [discriminate|intros (? & [=])]. Qed.
End Inv.
