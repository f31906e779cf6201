(** A user of the chat example at the browser, with all delays on the way: C113. *)
From Verif Require Import Base HMap Num Json DomModel ClientModel ClientSpec ComponentModel JsonSpec JsonProofs ComponentSpec ComponentProofs ComponentProofs2
  ChatModel ChatSpec ChatProofs2 UserModel DeskSpec DeskProofs DeskProofs2 DeskProofs3 DeskProofs4.
From Verif Require WsModel InnerHtml.
From Coq Require Import Lia.

Lemma requested_fun p ms rs : requested p ms rs -> forall rs', requested p ms rs' -> rs = rs'.
Proof.
  induction 1 as [|ms rs e m c dom ls out i H IH Hc Ha|ms rs e m c dom ls out H IH Hc Ha]; intros rs' H'.
  - inversion H' as [|ms1 rs1 ? ? ? ? ? ? ? ? ? ? E|ms1 rs1 ? ? ? ? ? ? ? ? ? E]; [reflexivity|destruct ms1; discriminate|destruct ms1; discriminate].
  - inversion H' as [E|ms1 rs1 e1 m1 c1 dom1 ls1 out1 i1 H1 Hc1 Ha1 E|ms1 rs1 e1 m1 c1 dom1 ls1 out1 H1 Hc1 Ha1 E]; [destruct ms; discriminate| |]; apply app_inj_tail in E as [-> E]; injection E as -> ->.
    + rewrite Hc in Hc1. injection Hc1 as -> -> -> ->. rewrite (asks_fun _ _ _ _ Ha Ha1), (IH _ H1). reflexivity.
    + rewrite Hc in Hc1. injection Hc1 as -> -> -> ->. destruct (Ha1 _ Ha).
  - inversion H' as [E|ms1 rs1 e1 m1 c1 dom1 ls1 out1 i1 H1 Hc1 Ha1 E|ms1 rs1 e1 m1 c1 dom1 ls1 out1 H1 Hc1 Ha1 E]; [destruct ms; discriminate| |]; apply app_inj_tail in E as [-> E]; injection E as -> ->.
    + rewrite Hc in Hc1. injection Hc1 as -> -> -> ->. destruct (Ha _ Ha1).
    + apply (IH _ H1).
Qed.
Lemma prefix_firstn {A} (l m : list A) : l = firstn (length l) (l ++ m).
Proof. induction l as [|x l IH]; [reflexivity|]. cbn [length app firstn]. now f_equal. Qed.

(** At every moment of every session, however typing, clicking and the two directions of the connection interleave: at
    each click on "send message" the page has one message field, at each click on the first page's button one name field;
    the messages the process has asked the server to send are those shown at the first clicks, in their order, each once;
    and when no text is left on the way, those shown at all clicks. The one name registered is the one shown at the first
    click of the first page's button. *)
Theorem C113_sent_as_shown : forall reparse, InnerHtml.standard reparse -> forall p k, sits reparse p k ->
  exists rs contents names, requested p (k_ms k) rs /\ (forall rs', requested p (k_ms k) rs' -> rs' = rs) /\
    k_sends k = map (fun v => [v]) contents /\ k_joins k = map (fun v => [v]) names /\
    messages_of rs = firstn (length (messages_of rs)) contents /\ names_of rs = firstn (length (names_of rs)) names /\ length (names_of rs) <= 1 /\
    (k_taken k = length (k_sent k) -> messages_of rs = contents /\ names_of rs = firstn 1 names).
Proof.
  intros reparse Hre p k Hk. destruct (sits_inv reparse Hre p k Hk) as (us & cs & out & rs & I1 & I2 & I3 & I4 & (S1 & S2 & _) & I6 & I7 & I8 & I9 & I10).
  exists rs, (vs (view_of us)), (vr (view_of us)). split; [exact I4|]. split; [intros rs' H'; symmetry; eapply requested_fun; eauto|]. split; [exact I9|]. split; [exact I10|].
  destruct (view_more (firstn (k_taken k) us) (skipn (k_taken k) us)) as [(m1 & M1) (m2 & M2)]. rewrite firstn_skipn in M1, M2.
  split; [rewrite S1, M1; apply prefix_firstn|]. split; [|split].
  - rewrite S2, M2. destruct (vr (view_of (firstn (k_taken k) us))); reflexivity.
  - rewrite S2. destruct (vr (view_of (firstn (k_taken k) us))); cbn; lia.
  - intros Ht. rewrite I1, map_length in Ht. rewrite Ht, firstn_all in S1, S2. auto.
Qed.
Print Assumptions C113_sent_as_shown.

(** The process goes on, and once nothing is on the way in either direction the browser shows the process's page, and the
    field shows what the process holds as the name or message being typed. *)
Theorem C113_at_rest : forall reparse, InnerHtml.standard reparse -> forall p k, sits reparse p k ->
  exists c out, chat_process p (k_ms k) = (Looping p c (chat_element c) (chat_listeners c), out) /\ k_read k <= length out /\
    (k_taken k = length (k_sent k) -> k_read k = length out ->
     exists n, k_doc k = [n] /\ displays (erase n) (chat_element c) /\
       match c with
       | Uninitialized name => flat_map (shown_by (bs "set_username")) [n] = [name]
       | Initialized _ _ _ composing => flat_map (shown_by (bs "update_message_contents")) [n] = [composing]
       end).
Proof.
  intros reparse Hre p k Hk. destruct (sits_inv reparse Hre p k Hk) as (us & cs & out & rs & I1 & I2 & (A1 & A2 & _) & I4 & (S1 & S2 & S3) & I6 & I7 & I8 & I9 & I10).
  exists (last cs chat_new), out. split; [exact A1|]. split.
  { destruct (k_read k) as [|j]; [lia|]. destruct I8 as (n & c & _ & Ec & _). assert (j < length (chat_new :: cs)) as L by (apply nth_error_Some; congruence). cbn [length] in L. lia. }
  intros Ht Hr. rewrite I1, map_length in Ht. rewrite Ht, firstn_all in S3. rewrite Hr, A2 in I8. cbn [browsing] in I8. destruct I8 as (n & c & -> & Ec & D & B). rewrite nth_last in Ec. injection Ec as <-.
  exists n. split; [reflexivity|]. split; [exact D|]. destruct (last cs chat_new) as [name|u id ml comp].
  - destruct B as (m & t & O & _ & F & _). rewrite (uninit_shown n m t O), F. destruct S3 as [-> _]. reflexivity.
  - destruct B as (m & t & O & F & _). rewrite (init_shown n m t O), F. destruct S3 as [-> _]. reflexivity.
Qed.
Print Assumptions C113_at_rest.

(** Not vacuous: a session in which ann joins, types a message, clicks twice, and types on before her first click has
    reached the process. *)
Inductive deed := DType (q : place) (t : str) | DClick (q : place) | DRead | DTake (e : option linput).
Definition ordinary_b (e : option linput) (text : str) : bool :=
  match client_message text with
  | None => true
  | Some (name, _) =>
      (negb (str_eqb name (bs "initialize_username")) || match e with Some (UserRegistered _ _) => true | _ => false end) &&
      (negb (str_eqb name (bs "submit_message")) || match e with Some (ReceiveMessage _) => true | _ => false end)
  end.
Definition field_b (q : place) (d : list vnode) : bool :=
  match node_at q d with Some (VElem tag a _ _ _) => str_eqb tag (bs "input") && match get (bs "type") a with Some v => str_eqb v (bs "text") | None => false end | _ => false end.
Definition deed_step (p : N) (x : deed) (k : desk) : option desk :=
  match k with Desk ms r d s t cs cj =>
    match x with
    | DType q text => if field_b q d then let '(d', s') := act (Types q text) d in Some (Desk ms r d' (s ++ s') t cs cj) else None
    | DClick q => match node_at q d with
        | Some (VElem tag a ty l kids) => let '(d', s') := act (Clicks q) d in
            Some (Desk ms r d' (s ++ s') t (cs ++ if listens (bs "submit_message") (VElem tag a ty l kids) then [flat_map (shown_by (bs "update_message_contents")) d] else [])
                    (cj ++ if listens (bs "initialize_username") (VElem tag a ty l kids) then [flat_map (shown_by (bs "set_username")) d] else []))
        | _ => None end
    | DRead => let '(_, out) := chat_process p ms in
        match nth_error out r with Some text => let '(d', _) := v_message InnerHtml.plain_browser text d in Some (Desk ms (S r) d' s t cs cj) | None => None end
    | DTake e => match nth_error s t with
        | Some text => if ordinary_b e text then Some (Desk (ms ++ [(e, Ws (inl (WsModel.Text text)))]) r d s (S t) cs cj) else None
        | None => None end
    end
  end.
Fixpoint deeds (p : N) (xs : list deed) (k : desk) : option desk :=
  match xs with [] => Some k | x :: xs' => match deed_step p x k with Some k' => deeds p xs' k' | None => None end end.
Lemma deed_sits p x k k' : deed_step p x k = Some k' -> sits InnerHtml.plain_browser p k -> sits InnerHtml.plain_browser p k'.
Proof.
  destruct k as [ms r d s t cs cj], x as [q text|q| |e]; cbn [deed_step]; intros H Hk.
  - destruct (field_b q d) eqn:F; [|discriminate]. destruct (act (Types q text) d) as [d' s'] eqn:E. injection H as <-. apply (sits_type _ _ ms r d s t cs cj q text d' s' Hk); [|exact E].
    unfold field_b in F. destruct (node_at q d) as [[|tag a ty l kids]|] eqn:N; try discriminate. apply andb_prop in F as [F1 F2]. apply str_eqb_eq in F1. subst tag. exists a, ty, l, kids. split; [exact N|].
    destruct (get (bs "type") a); [|discriminate]. apply str_eqb_eq in F2. now subst.
  - destruct (node_at q d) as [[|tag a ty l kids]|] eqn:N; try discriminate. destruct (act (Clicks q) d) as [d' s'] eqn:E. injection H as <-. exact (sits_click _ _ ms r d s t cs cj q tag a ty l kids s' d' Hk N E).
  - destruct (chat_process p ms) as [proc out] eqn:C. destruct (nth_error out r) as [text|] eqn:N; [|discriminate]. destruct (v_message InnerHtml.plain_browser text d) as [d' ok] eqn:M. injection H as <-.
    exact (sits_read _ _ ms r d s t cs cj proc out text d' ok Hk C N M).
  - destruct (nth_error s t) as [text|] eqn:N; [|discriminate]. destruct (ordinary_b e text) eqn:O; [|discriminate]. injection H as <-. apply (sits_take _ _ ms r d s t cs cj text e Hk N).
    destruct (sits_inv _ InnerHtml.plain_browser_standard p _ Hk) as (us & chats & out & rs & _ & _ & (A & _) & _). cbn [k_ms] in A.
    intros c dom ls out1 i rq Hc Ha Hr. rewrite A in Hc. injection Hc as <- <- <- <-. apply chat_asks in Ha as [[=]|(text' & name & payload & [= <-] & Hs & Hi)].
    apply says_iff in Hs. unfold ordinary_b in O. rewrite Hs in O. apply andb_prop in O as [O1 O2].
    destruct (last chats chat_new), Hi as [(_ & v & _ & ->)|(-> & ->)]; try discriminate Hr; injection Hr as <-; destruct e as [[]|]; try discriminate; eauto.
Qed.
Lemma deeds_sits p xs : forall k k', deeds p xs k = Some k' -> sits InnerHtml.plain_browser p k -> sits InnerHtml.plain_browser p k'.
Proof. induction xs as [|x xs IH]; intros k k'; cbn [deeds]; [now intros [= ->]|]. destruct (deed_step p x k) as [k1|] eqn:E; [|discriminate]. intros H Hk. eapply IH; [exact H|]. eapply deed_sits; eauto. Qed.
Definition ann_session : list deed := [DRead; DType [0; 0; 0] (bs "a"); DType [0; 0; 0] (bs "ann"); DClick [0; 1; 0]; DClick [0; 1; 0]; DTake None; DTake None; DRead; DTake (Some (UserRegistered 4 (bs "ann"))); DTake (Some (UserRegistered 5 (bs "ann"))); DRead; DRead;
  DType [0; 0; 1; 0] (bs "hi"); DClick [0; 0; 2; 0]; DType [0; 0; 1; 0] (bs "hi again"); DTake None; DTake (Some (ReceiveMessage (ChatMessage 4 (bs "ann") (bs "hi")))); DClick [0; 0; 2; 0]; DRead; DRead].
Definition ann_finish : list deed := [DTake None; DTake (Some (ReceiveMessage (ChatMessage 4 (bs "ann") (bs "hi again")))); DRead; DRead].
(** At the end of the first part the second message is still on its way. *)
Example C113_example : exists k k', deeds 9 ann_session (Desk [] 0 [] [] 0 [] []) = Some k /\ deeds 9 ann_finish k = Some k' /\
  sits InnerHtml.plain_browser 9 k /\ sits InnerHtml.plain_browser 9 k' /\
  k_sends k = [[bs "hi"]; [bs "hi again"]] /\ k_joins k = [[bs "ann"]; [bs "ann"]] /\ k_taken k = 6 /\ length (k_sent k) = 8 /\
  k_taken k' = length (k_sent k') /\ k_read k' = length (snd (chat_process 9 (k_ms k'))) /\
  exists rs, requested 9 (k_ms k') rs /\ messages_of rs = [bs "hi"; bs "hi again"] /\ names_of rs = [bs "ann"].
Proof.
  destruct (deeds 9 ann_session (Desk [] 0 [] [] 0 [] [])) as [k|] eqn:E; [|vm_compute in E; discriminate].
  destruct (deeds 9 ann_finish k) as [k'|] eqn:E'; [|exfalso; vm_compute in E; injection E as <-; vm_compute in E'; discriminate].
  assert (sits InnerHtml.plain_browser 9 k) as Hk by (apply (deeds_sits 9 ann_session _ _ E); constructor). assert (sits InnerHtml.plain_browser 9 k') as Hk' by (apply (deeds_sits 9 _ _ _ E'); exact Hk).
  exists k, k'. split; [reflexivity|]. split; [exact E'|]. split; [exact Hk|]. split; [exact Hk'|].
  destruct (C113_sent_as_shown _ InnerHtml.plain_browser_standard 9 k' Hk') as (rs & contents & names & R & _ & E1 & E2 & _ & _ & _ & R').
  vm_compute in E. injection E as <-. vm_compute in E'. injection E' as <-.
  do 5 (split; [vm_compute; reflexivity|]). split; [vm_compute; reflexivity|]. exists rs. split; [exact R|]. destruct (R' eq_refl) as [-> ->].
  cbn [k_sends] in E1. cbn [k_joins] in E2. destruct contents as [|c1 [|c2 [|]]]; try discriminate. destruct names as [|n1 [|n2 [|]]]; try discriminate. injection E1 as <- <-. injection E2 as <- <-. split; reflexivity.
Qed.
