(** C51, the exact form: which re-renders that add elements come out right. *)
From Verif Require Import Base HMap Num DomModel DomSpec DomProofs DomProofs2 DomProofs3 DomProofs4 HtmlModel GrowProofs PropDom.
From Coq Require Import Lia.

(** No re-render that pushes an element back ever comes out right: whatever the pages are, applying the changeset fails or
    gives another page than the one rendered. *)
Theorem C51_pushed_back_refuted : forall max w1 w2 a b j j',
  wrapped_ok w1 -> wrapped_ok w2 -> into_element w1 0 = Some (a, j) -> into_element w2 0 = Some (b, j') ->
  (j <= max + 1)%N -> (j' <= max + 1)%N -> pushed a b ->
  forall os b', diff a (Some b) = Some os -> apply max os a = Some b' -> ~ view b' b.
Proof.
  intros max w1 w2 a b j j' O1 O2 E1 E2 J1 J2 Hp os b' Ho Ha.
  destruct (into_numbered _ _ _ _ E1) as [N1 U1]. destruct (into_numbered _ _ _ _ E2) as [N2 U2].
  apply (pushed_never max a b Hp 0%N j j' N1 N2 U1 U2) with (os := os); auto; [apply (into_proper w1 max 0%N a j)|apply (into_proper w2 max 0%N b j')]; auto.
Qed.
Print Assumptions C51_pushed_back_refuted.
(** Of the pages that only grow, exactly those come out right in which nothing is added before an element that was there
    already (all those keep their ids). *)
Theorem C51_growing_pages : forall max w1 w2 a b j j',
  wrapped_ok w1 -> wrapped_ok w2 -> into_element w1 0 = Some (a, j) -> into_element w2 0 = Some (b, j') ->
  (j <= max + 1)%N -> (j' <= max + 1)%N -> grows a b ->
  ((exists os b', diff a (Some b) = Some os /\ apply max os a = Some b' /\ view b' b) <-> matched same_id a b).
Proof.
  intros max w1 w2 a b j j' O1 O2 E1 E2 J1 J2 Hg. split.
  - intros (os & b' & Ho & Ha & V). destruct (into_numbered _ _ _ _ E1) as [N1 _]. destruct (into_numbered _ _ _ _ E2) as [N2 _].
    destruct (grows_cases b 0%N a j j' N1 N2 Hg) as [[H _]|H]; [exact H|]. exfalso.
    exact (C51_pushed_back_refuted max w1 w2 a b j j' O1 O2 E1 E2 J1 J2 H os b' Ho Ha V).
  - intros Hm. apply (C51_rerenders_partial max w1 w2 a b j j'); auto. now apply same_fits.
Qed.
Print Assumptions C51_growing_pages.
(** Not vacuous: a list that gets an item in front of its neighbour is such a page, and it is pushed back; a list that
    grows at its end keeps all ids. *)
Example C51_example_pushed : exists a b j j', into_element grow1 0 = Some (a, j) /\ into_element grow2 0 = Some (b, j') /\ grows a b /\ pushed a b /\ ~ matched same_id a b.
Proof.
  eexists _, _, _, _. split; [vm_compute; reflexivity|]. split; [vm_compute; reflexivity|]. split; [repeat constructor|]. split.
  - eapply (Pushed _ _ [_] _ [] [_] _ []); try reflexivity.
    + repeat constructor.
    + constructor. cbn. lia.
  - intros H. inversion H as [? ? _ H1]; subst. inversion H1 as [|?|? ? ? ? _ H2]; subst. inversion H2 as [|?|? ? ? ? H3 _]; subst. inversion H3 as [? ? H4 _]. discriminate H4.
Qed.
Example C51_example_end : exists a b j j', into_element (page [bs "a"; bs "b"]) 0 = Some (a, j) /\ into_element (page [bs "a"; bs "c"; bs "d"]) 0 = Some (b, j') /\
  grows a b /\ matched same_id a b /\ j <> j'.
Proof. eexists _, _, _, _. split; [vm_compute; reflexivity|]. split; [vm_compute; reflexivity|]. split; [repeat constructor|]. split; [repeat constructor|discriminate]. Qed.
