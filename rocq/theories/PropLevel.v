(** C51, exactly: which re-renders come out right. *)
From Verif Require Import Base HMap Num DomModel DomSpec ExactSpec DomProofs DomProofs2 DomProofs3 DomProofs4 HtmlModel GrowProofs PropDom ExactRun ExactSkel ExactMark ExactStuck.
From Coq Require Import Lia.

(** A re-render comes out right exactly if, walking the two pages side by side, no element gets a larger id, no element
    that is not bare is created under the old id of an element it is in, and every element that gets another id keeps its
    name and its listeners (or loses all of its listeners). *)
Theorem C51_exactly : forall max w1 w2 a b j j',
  wrapped_ok w1 -> wrapped_ok w2 -> into_element w1 0 = Some (a, j) -> into_element w2 0 = Some (b, j') ->
  (j <= max + 1)%N -> (j' <= max + 1)%N ->
  ((exists os b', diff a (Some b) = Some os /\ apply max os a = Some b' /\ view b' b) <-> level [] a b /\ matched keeps a b).
Proof.
  intros max w1 w2 a b j j' O1 O2 E1 E2 J1 J2. destruct (into_numbered _ _ _ _ E1) as [N1 U1]. destruct (into_numbered _ _ _ _ E2) as [N2 U2].
  assert (proper max a) as P1 by (apply (into_proper w1 max 0%N a j); auto). assert (proper max b) as P2 by (apply (into_proper w2 max 0%N b j'); auto). split.
  - intros (os & b' & Ho & Ha & V). pose proof (right_level max a b 0%N j j' os b' N1 N2 U1 U2 P1 P2 Ho Ha V) as HL. split; [exact HL|].
    exact (kept max [] a b b' 0%N j 0%N j' os N1 N2 U1 U2 P1 P2 HL Ho Ha V).
  - intros [HL HK]. destruct (comes_out max b [] a 0%N j 0%N j' N1 N2 U1 U2 P1 P2 HL HK) as (os & Ho & H). destruct (H a (view_refl a)) as (b' & V & _ & R).
    exists os, b'. split; [exact Ho|]. split; [|exact V]. eapply runs_apply. exact R.
Qed.
Print Assumptions C51_exactly.

(** Not vacuous. The first paragraph loses its link and the second, which moves up from id 3 to 2, gets a line break, which
    gets the old id of the paragraph: it is bare, and the page comes out right. With a link with a text instead it does not. *)
Definition swap1 : wrapped := add_children [add_child (wrap KA [] (bs "x")) (wrap KP [] (bs "a")); wrap KP [] (bs "b")] (wrap KDiv [] []).
Definition swap2 (k : kind) (t : str) : wrapped := add_children [wrap KP [] (bs "a"); add_child (wrap k [] t) (wrap KP [] (bs "c"))] (wrap KDiv [] []).
Example C51_example_bare : exists a b j j', into_element swap1 0 = Some (a, j) /\ into_element (swap2 KBr []) 0 = Some (b, j') /\ level [] a b /\ matched keeps a b /\ ~ grows a b.
Proof.
  eexists _, _, _, _. split; [vm_compute; reflexivity|]. split; [vm_compute; reflexivity|]. split; [|split].
  - repeat first [apply Level|apply LevelCons|apply LevelDrop|apply LevelAdd|apply Forall_cons|apply Forall_nil|apply Every|cbn; lia|intros _; repeat split].
  - repeat first [left; reflexivity|right; split; [reflexivity|now left]|constructor].
  - intros H. inversion H as [? ? _ H1]; subst. inversion H1 as [|?|? ? ? ? H2 _]; subst. inversion H2 as [? ? H3 _]; subst. cbn in H3. lia.
Qed.
Example C51_example_collides : exists a b j j', into_element swap1 0 = Some (a, j) /\ into_element (swap2 KA (bs "y")) 0 = Some (b, j') /\ matched keeps a b /\ ~ level [] a b /\
  exists os b', diff a (Some b) = Some os /\ apply 1000 os a = Some b' /\ ~ view b' b.
Proof.
  eexists _, _, _, _. split; [vm_compute; reflexivity|]. split; [vm_compute; reflexivity|]. split; [|split].
  - repeat first [left; reflexivity|right; split; [reflexivity|now left]|constructor].
  - intros H. inversion H as [? ? ? _ H1]; subst. inversion H1 as [| |? ? ? ? ? _ H2]; subst. inversion H2 as [| |? ? ? ? ? H3 _]; subst. inversion H3 as [? ? ? _ H4]; subst.
    inversion H4 as [? ? H5| |]; subst. inversion H5 as [|? ? H6 _]; subst. inversion H6 as [? H7 _]; subst. destruct H7 as (_ & _ & _ & H7); [now left|discriminate H7].
  - eexists _, _. split; [vm_compute; reflexivity|]. split; [vm_compute; reflexivity|]. intros H. inversion H as [? ? ? ? ? ? ? ? ? ? _ Hc]; subst. inversion Hc as [|? ? ? ? _ Hc2]; subst. inversion Hc2 as [|? ? ? ? Hd _]; subst. inversion Hd.
Qed.
(** An element that changes its name when it moves, and one that only loses its listeners. *)
Example C51_example_renamed : exists a b j j', into_element swap1 0 = Some (a, j) /\
  into_element (add_children [wrap KP [] (bs "a"); wrap KH1 [] (bs "b")] (wrap KDiv [] [])) 0 = Some (b, j') /\ level [] a b /\ ~ matched keeps a b.
Proof.
  eexists _, _, _, _. split; [vm_compute; reflexivity|]. split; [vm_compute; reflexivity|]. split.
  - repeat first [apply Level|apply LevelCons|apply LevelDrop|apply LevelAdd|apply Forall_cons|apply Forall_nil|apply Every|cbn; lia|intros _; repeat split].
  - intros H. inversion H as [? ? _ H1]; subst. inversion H1 as [|?|? ? ? ? _ H2]; subst. inversion H2 as [|?|? ? ? ? H3 _]; subst. inversion H3 as [? ? [H4|[H4 _]] _]; discriminate H4.
Qed.
