(** C97, C98: the messages between browser and server are JSON texts, and read exactly as they say. The grammar of JSON
    texts and what a message means are in JsonSpec.v. *)
From Verif Require Import Base HMap Utf8 Json DomModel ClientModel ComponentModel JsonSpec JsonProofs ComponentSpec ComponentProofs PropComponent.
From Verif Require WsModel.

(* ------------------------------------------------------------------ *)
(** ** C97. A text from the browser is decoded exactly when it is a JSON text of a message, to what it says. *)
Theorem C97_messages_exact : forall text name o, client_message text = Some (name, o) <-> says text name o.
Proof. exact says_iff. Qed.
Print Assumptions C97_messages_exact.
(** No text says two things. *)
Theorem C97_unambiguous : forall text n1 o1 n2 o2, says text n1 o1 -> says text n2 o2 -> n1 = n2 /\ o1 = o2.
Proof. intros text n1 o1 n2 o2 H1 H2. apply says_iff in H1, H2. rewrite H1 in H2. now injection H2. Qed.
Print Assumptions C97_unambiguous.
(** A running component process, whenever it gets a text: if it says the name of a click or submit handler (whatever
    the value), the component goes on as if it had been given that handler's input; if it says the name of an input
    handler and a value, as if given the handler's input for the value; otherwise as if it had got nothing. *)
Theorem C97_acts_on_what_it_says : forall D I S E P (C : component D I S E P) data sent before ctx c dom ls out e text after,
  main_loop C data sent before = (Looping ctx c dom ls, out) ->
  let after_getting ms := main_loop C data sent (before ++ ms ++ after) in
  let got := after_getting [(e, Ws (inl (WsModel.Text text)))] in
  (forall name o call, says text name o -> get name ls = Some (OnClick call) \/ get name ls = Some (OnSubmit call) ->
     got = after_getting [(e, Input call)]) /\
  (forall name value call, says text name (Some value) -> get name ls = Some (OnInput call) -> got = after_getting [(e, Input (call value))]) /\
  (forall name call, says text name None -> get name ls = Some (OnInput call) -> got = after_getting []) /\
  (forall name o, says text name o -> get name ls = None -> got = after_getting []) /\
  ((forall name o, ~ says text name o) -> got = after_getting []).
Proof.
  intros D I S E P C data sent before ctx c dom ls out e text after H after_getting got.
  assert (forall i, asks ls (Ws (P := P) (inl (WsModel.Text text))) i -> got = after_getting [(e, Input i)]) as A.
  { intros i Hi. subst got. unfold after_getting, main_loop in *. rewrite !(run_app C data sent before), H. cbn [app run receive fst snd].
    rewrite (iteration_asks _ _ _ _ _ _ _ _ Hi). reflexivity. }
  assert (noise ls (Ws (P := P) (inl (WsModel.Text text))) -> got = after_getting []) as B.
  { intros Hn. subst got. unfold after_getting. refine (C61_noise_ignored _ _ _ _ _ C data sent before [(e, Ws (inl (WsModel.Text text)))] after _ _ _ _ _ H _).
    constructor; [exact Hn|constructor]. }
  split; [|split; [|split; [|split]]].
  - intros name o call Hs [Hg|Hg]; apply A; [eapply asks_click|eapply asks_submit]; eauto.
  - intros name value call Hs Hg. apply A. eapply asks_input; eauto.
  - intros name call Hs Hg. apply B. eexists. split; [reflexivity|]. split; [discriminate|]. intros t n o [= <-] Hs'.
    destruct (C97_unambiguous _ _ _ _ _ Hs Hs') as [<- <-]. right. eauto.
  - intros name o Hs Hg. apply B. eexists. split; [reflexivity|]. split; [discriminate|]. intros t n o' [= <-] Hs'.
    destruct (C97_unambiguous _ _ _ _ _ Hs Hs') as [<- <-]. now left.
  - intros Hs. apply B. eexists. split; [reflexivity|]. split; [discriminate|]. intros t n o' [= <-] Hs'. exfalso. now apply (Hs n o').
Qed.
Print Assumptions C97_acts_on_what_it_says.
(** Blanks, other members, escapes, surrogate pairs, numbers, null and the array form; and texts that say nothing: a
    repeated member, a value that is no string, a missing listener, a text after the message, a lone surrogate. *)
Example C97_example :
  says (bs " { ""at"" : [-1.5e+3, true, {}], ""listener"" : ""a\u0064d\/"" , ""payload"":
      { ""value"" : ""1\t\ud83d\ude00"" } } ") (bs "add/") (Some (bs "1	" ++ [xf0; x9f; x98; x80])) /\
  says (bs "{""payload"":null,""listener"":""add""}") (bs "add") None /\
  says (bs "[""add"",{""value"":""x""}]") (bs "add") (Some (bs "x")) /\
  (forall n o, ~ says (bs "{""listener"":""a"",""listener"":""b""}") n o) /\
  (forall n o, ~ says (bs "{""listener"":""a"",""payload"":{""value"":1}}") n o) /\
  (forall n o, ~ says (bs "{""payload"":null}") n o) /\
  (forall n o, ~ says (bs "{""listener"":""a""},") n o) /\
  (forall n o, ~ says (bs "{""listener"":""\ud83d""}") n o).
Proof.
  split; [apply says_iff; vm_compute; reflexivity|]. split; [apply says_iff; vm_compute; reflexivity|]. split; [apply says_iff; vm_compute; reflexivity|].
  split; [|split; [|split; [|split]]]; intros n o H; apply says_iff in H; vm_compute in H; discriminate H.
Qed.

(* ------------------------------------------------------------------ *)
(** ** C98. Whatever the server sends to the browser is a JSON text that lists the instructions. *)
Lemma op_describes o : describes o (op_json o).
Proof.
  unfold describes, op_json. eexists. split; [reflexivity|].
  assert (op_ty (op_instr o) = fst (instruction_form (op_instr o))) as -> by (destruct (op_instr o) as [| | | | | | | |? []| | | | |]; reflexivity).
  assert (op_payload (op_instr o) = snd (instruction_form (op_instr o))) as -> by (destruct (op_instr o) as [| | | | | | | |? []| | | | |]; reflexivity).
  unfold field. destruct (snd (instruction_form (op_instr o))) as [p|].
  - split; [|split].
    + exists [], [(bs "ty", JStr (fst (instruction_form (op_instr o)))); (bs "payload", JStr p)]. repeat split; [intros []|]. cbn [map fst In]. intros [H|[H|[]]]; discriminate H.
    + exists [(bs "el", JStr (op_id o))], [(bs "payload", JStr p)]. repeat split; cbn [map fst In]; intros [H|[]]; discriminate H.
    + exists [(bs "el", JStr (op_id o)); (bs "ty", JStr (fst (instruction_form (op_instr o))))], []. repeat split; [|intros []]. cbn [map fst In]. intros [H|[H|[]]]; discriminate H.
  - split; [|split].
    + exists [], [(bs "ty", JStr (fst (instruction_form (op_instr o))))]. repeat split; [intros []|]. cbn [map fst In]. intros [H|[]]; discriminate H.
    + exists [(bs "el", JStr (op_id o))], []. repeat split; [|intros []]. cbn [map fst In]. intros [H|[]]; discriminate H.
    + unfold no_member. cbn [map fst In]. intros [H|[H|[]]]; discriminate H.
Qed.
Lemma op_plain o : plain (op_json o).
Proof. unfold op_json, field. constructor. destruct (op_payload (op_instr o)); repeat constructor. Qed.
Lemma op_depth o : jdepth (op_json o) <= 1.
Proof. unfold op_json, field. destruct (op_payload (op_instr o)); cbn; lia. Qed.
Theorem C98_changesets_are_json : forall os, lists_instructions (wire os) os.
Proof.
  intros os. exists (map op_json os). split.
  - apply parse_json_iff. unfold wire. apply json_round_trip.
    + constructor. apply Forall_forall. intros v Hv. apply in_map_iff in Hv as (o & <- & _). apply op_plain.
    + cbn [jdepth]. apply le_n_S. induction os as [|o os IH]; [cbn; lia|]. cbn [map fold_right]. pose proof (op_depth o). lia.
  - induction os as [|o os IH]; constructor; [apply op_describes|exact IH].
Qed.
Print Assumptions C98_changesets_are_json.
(** Every text a component process sends, in any history. *)
Theorem C98_server_sends_json : forall D I S E P (C : component D I S E P) data sent ms,
  Forall (fun text => exists os, lists_instructions text os) (snd (main_loop C data sent ms)).
Proof.
  intros D I S E P C data sent ms. unfold main_loop. generalize (@Fresh I S P). induction ms as [|[e m] ms IH]; intros p; [constructor|]. cbn [run].
  assert (Forall (fun text => exists os, lists_instructions text os) (snd (receive C data sent (e, m) p))) as H1.
  { destruct p as [|ctx c d l|c|]; cbn [receive fst snd]; [| |constructor|constructor].
    - unfold start. destruct m; try constructor. destruct (c_new _ _ _ _); [|constructor]. destruct (c_render _ _) as [[? ?]|]; [|constructor].
      destruct (diff _ _) as [os|]; [|constructor]. constructor; [|constructor]. exists os. apply C98_changesets_are_json.
    - assert (forall i, Forall (fun text => exists os, lists_instructions text os) (snd (update_and_diff C e ctx c d i))) as K.
      { intros i. unfold update_and_diff, perform_diff. destruct (c_update _ _ _ _ _); [|constructor]. destruct (c_render _ _) as [[? ?]|]; [|constructor].
        destruct (diff _ _) as [os|]; [|constructor]. constructor; [|constructor]. exists os. apply C98_changesets_are_json. }
      destruct (classify l m) as [[i Hi]|[Hn [Hc|[Hw|[Hc Hw]]]]].
      + rewrite (iteration_asks _ _ _ _ _ _ _ _ Hi). apply K.
      + rewrite Hc. constructor.
      + destruct Hw as (q & ->). constructor.
      + rewrite (iteration_idle _ _ _ _ _ _ _ Hn Hc Hw). constructor. }
  destruct (receive C data sent (e, m) p) as [p1 o1]. specialize (IH p1). destruct (run C data sent ms p1) as [p2 o2]. apply Forall_app. auto.
Qed.
Print Assumptions C98_server_sends_json.
Example C98_example : lists_instructions (bs "[{""el"":""0"",""ty"":""setText"",""payload"":""a\""\u0001""}]") [Op (bs "0") (SetText (bs "a""" ++ [x01]))] /\
  ~ lists_instructions (bs "[{""el"":""0"",""ty"":""setText"",""payload"":""a""}") [Op (bs "0") (SetText (bs "a"))].
Proof.
  split; [exact (C98_changesets_are_json [Op (bs "0") (SetText (bs "a""" ++ [x01]))])|].
  intros (l & H & _). apply parse_json_iff in H. vm_compute in H. discriminate H.
Qed.
