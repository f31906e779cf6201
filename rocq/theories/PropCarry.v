(** C59, exactly: which changesets that are right the browser also gets right. *)
From Verif Require Import Base HMap Num Json DomModel DomSpec ClientModel ClientSpec InnerHtml HtmlModel ExactSpec CarrySpec DomProofs DomProofs2 DomProofs3 DomProofs4 ExactRun ClientProofs ClientProofs2 CarryProofs CarryRun CarryMain PropDom PropClient PropLevel.
From Coq Require Import Lia.

(** Two renders whose changeset is right (applying it to the old tree gives the new one, C51), in which only elements without
    content are renamed: the browser, showing the old page, executes the whole message and then shows the new page, if and only
    if every element that stays is one of those it can carry over. *)
Theorem C59_exactly : forall reparse max w1 w2 a b j j' os x, standard reparse ->
  wrapped_ok w1 -> wrapped_ok w2 -> into_element w1 0 = Some (a, j) -> into_element w2 0 = Some (b, j') ->
  (j <= max + 1)%N -> (j' <= max + 1)%N -> neat a -> neat b ->
  (exists b', diff a (Some b) = Some os /\ apply max os a = Some b' /\ view b' b) ->
  matched renamed_empty a b -> displays x a ->
  ((exists y, on_message reparse (wire os) [x] = ([y], true) /\ displays y b) <-> matched carries a b).
Proof.
  intros reparse max w1 w2 a b j j' os x Hr O1 O2 E1 E2 J1 J2 C1 C2 (b' & Ho & Ha & Hv) HN V.
  assert (level [] a b /\ matched keeps a b) as [HL HK] by (apply (C51_exactly max w1 w2 a b j j'); eauto).
  destruct (into_numbered _ _ _ _ E1) as [N1 U1]. destruct (into_numbered _ _ _ _ E2) as [N2 U2].
  assert (tidy a) as T1 by (split; [apply (proper_wf max); apply (into_proper w1 max 0%N a j); auto|exact C1]).
  assert (tidy b) as T2 by (split; [apply (proper_wf max); apply (into_proper w2 max 0%N b j'); auto|exact C2]).
  destruct (ends_out reparse Hr b [] a 0%N j 0%N j' N1 N2 U1 U2 T1 T2 HL HK HN) as (os' & Ho' & H).
  cbn [diff] in Ho. rewrite Ho' in Ho. injection Ho as ->.
  assert (matched carries a b <-> carry b a false) as ->. { rewrite carry_iff. split; [intros Hm; split; [exact Hm|discriminate]|tauto]. }
  assert (on_message reparse (wire os) [x] = js_run reparse (map js_op os) [x]) as -> by (unfold on_message; now rewrite read_wire).
  destruct (H false x V) as [[F1 F2]|(y & R & _ & _ & Hy)].
  - apply jfails_run in F1. split; [intros (y & Ey & _); rewrite Ey in F1; discriminate|contradiction].
  - apply jruns_run in R. rewrite R. split; [intros (z & [= <-] & Hz); now apply Hy|]. intros Hc. exists y. split; [reflexivity|now apply Hy].
Qed.
Print Assumptions C59_exactly.

(** For pages without "+" in values: what is shown is the very page. *)
Theorem C59_exactly_shown : forall reparse max w1 w2 a b j j' os x, standard reparse ->
  wrapped_ok w1 -> wrapped_ok w2 -> into_element w1 0 = Some (a, j) -> into_element w2 0 = Some (b, j') ->
  (j <= max + 1)%N -> (j' <= max + 1)%N -> clean a -> clean b ->
  (exists b', diff a (Some b) = Some os /\ apply max os a = Some b' /\ view b' b) ->
  matched renamed_empty a b -> shows x a ->
  ((exists y, on_message reparse (wire os) [x] = ([y], true) /\ shows y b) <-> matched carries a b).
Proof.
  intros reparse max w1 w2 a b j j' os x Hr O1 O2 E1 E2 J1 J2 C1 C2 Hb HN V.
  rewrite <- (C59_exactly reparse max w1 w2 a b j j' os x); auto using clean_neat; [|now apply clean_cut].
  split; intros (y & R & Hy); exists y; (split; [exact R|now apply (clean_cut b C2)]).
Qed.
Print Assumptions C59_exactly_shown.

(** Not vacuous. The listener of the box and the one of the field in it change together: the field gets its new listener, and all
    is well (although the field had a listener when that of the box changed). If the field keeps its listener, it loses it. *)
Definition box (l1 l2 : str) : wrapped :=
  add_child (add_listener (Listener l2 (bs "input")) (wrap KInput [] [])) (add_listener (Listener l1 (bs "click")) (wrap KDiv [] [])).
Lemma box_ok l1 l2 : wrapped_ok (box l1 l2).
Proof. repeat constructor. Qed.
Example C59_example_relisted : exists a b j j', into_element (box (bs "l1") (bs "m1")) 0 = Some (a, j) /\ into_element (box (bs "l2") (bs "m2")) 0 = Some (b, j') /\
  matched renamed_empty a b /\ matched carries a b /\ ~ matched browser_pair a b /\
  exists os b' y, diff a (Some b) = Some os /\ apply 1000 os a = Some b' /\ view b' b /\ on_message plain_browser (wire os) [paint a] = ([y], true) /\ y = paint b.
Proof.
  eexists _, _, _, _. split; [vm_compute; reflexivity|]. split; [vm_compute; reflexivity|]. split; [|split; [|split]].
  - repeat first [(left; reflexivity)|constructor].
  - constructor; [split; [now left|]; split; [now left|]; right; apply MatCons; [|constructor]; constructor; [right; vm_compute; discriminate|constructor]|].
    apply MatCons; [|constructor]. constructor; [split; [now left|]; split; [now left|]; right; constructor|constructor].
  - intros H. inversion H as [? ? HB0 _]; subst. destruct HB0 as (_ & _ & HB). destruct HB as [HB|HB]; [vm_compute in HB; discriminate HB|]. inversion HB as [|? ? HQ _]; subst. inversion HQ as [? HQ1 _]; subst. discriminate HQ1.
  - eexists _, _, _. split; [vm_compute; reflexivity|]. split; [vm_compute; reflexivity|]. split; [repeat constructor|]. split; vm_compute; reflexivity.
Qed.
Example C59_example_listener_lost : exists a b j j', into_element (box (bs "l1") (bs "m")) 0 = Some (a, j) /\ into_element (box (bs "l2") (bs "m")) 0 = Some (b, j') /\
  matched renamed_empty a b /\ ~ matched carries a b /\
  exists os b' y, diff a (Some b) = Some os /\ apply 1000 os a = Some b' /\ view b' b /\ on_message plain_browser (wire os) [paint a] = ([y], true) /\ ~ shows y b.
Proof.
  eexists _, _, _, _. split; [vm_compute; reflexivity|]. split; [vm_compute; reflexivity|]. split; [|split].
  - repeat first [(left; reflexivity)|constructor].
  - intros H. inversion H as [? ? HB0 _]; subst. destruct HB0 as (_ & _ & HB). destruct HB as [HB|HB]; [vm_compute in HB; discriminate HB|]. inversion HB as [| |? ? ? ? HM _]; subst. inversion HM as [? ? HQ0 _]; subst. destruct HQ0 as [HQ|HQ]; [discriminate HQ|now apply HQ].
  - eexists _, _, _. split; [vm_compute; reflexivity|]. split; [vm_compute; reflexivity|]. split; [repeat constructor|]. split; [vm_compute; reflexivity|].
    intros H. inversion H as [? ? ? ? ? ? ? ? kids Hk1 Hk2 Hk]; subst. match goal with E : _ ++ kids = _ |- _ => cbn in E; subst kids end. inversion Hk as [|? ? ? ? Hs _]; subst. inversion Hs. match goal with E : map _ ?l = [], E2 : ?l = _ :: _ |- _ => rewrite E2 in E; discriminate E end.
Qed.
(** A text put into an element that had a child: the child is gone, its deletion throws, and the rest of the message (here, the
    second paragraph's text) is lost. *)
Example C59_example_abandoned : exists a b j j',
  into_element (add_children [add_child (wrap KBr [] []) (wrap KP [] (bs "a")); wrap KP [] (bs "b")] (wrap KDiv [] [])) 0 = Some (a, j) /\
  into_element (add_children [wrap KP [] (bs "c"); wrap KP [] (bs "d")] (wrap KDiv [] [])) 0 = Some (b, j') /\
  matched renamed_empty a b /\ ~ matched carries a b /\
  exists os b', diff a (Some b) = Some os /\ apply 1000 os a = Some b' /\ view b' b /\ snd (on_message plain_browser (wire os) [paint a]) = false.
Proof.
  eexists _, _, _, _. split; [vm_compute; reflexivity|]. split; [vm_compute; reflexivity|]. split; [|split].
  - repeat first [(left; reflexivity)|constructor].
  - intros H. inversion H as [? ? _ HB]; subst. inversion HB as [| |? ? ? ? HM _]; subst. inversion HM as [? ? HQ0 _]; subst. destruct HQ0 as (_ & [HQ|[[_ HQ]|[HQ _]]] & _); discriminate HQ.
  - eexists _, _. split; [vm_compute; reflexivity|]. split; [vm_compute; reflexivity|]. split; [repeat constructor|]. vm_compute; reflexivity.
Qed.
