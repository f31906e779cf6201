(** C63, exactly: which sessions the two kinds of client follow. *)
From Verif Require Import Base HMap Num Json DomModel DomSpec ClientModel ClientSpec InnerHtml HtmlModel ExactSpec CarrySpec ComponentModel ComponentSpec DomProofs DomProofs2 DomProofs3 DomProofs4 ExactRun ClientProofs ClientProofs2 ComponentProofs SessionProofs CarryProofs CarryRun CarryMain PropDom PropClient PropLevel PropBrowser PropCarry.
From Coq Require Import Lia.

(** What [WrappedBodyNode]s are turned into, with ids up to [max]. *)
Definition rendered (max : N) (d : element) : Prop := exists w j, wrapped_ok w /\ into_element w 0 = Some (d, j) /\ (j <= max + 1)%N.


(** The changesets sent for a sequence of pages, each relative to the page before. *)
Inductive changes : element -> list element -> list (list op) -> Prop :=
| ch_nil d : changes d [] []
| ch_cons d d' ds os oss : diff d (Some d') = Some os -> changes d' ds oss -> changes d (d' :: ds) (os :: oss).
Lemma updates_changes d doms outs : updates d doms outs -> exists oss, outs = map wire oss /\ changes d doms oss.
Proof.
  induction 1 as [|d d' ds os outs H _ (oss & -> & IH)]; [exists []; split; [reflexivity|constructor]|].
  exists (os :: oss). split; [reflexivity|]. now constructor.
Qed.
Lemma changes_length d doms oss : changes d doms oss -> length oss = length doms.
Proof. induction 1; cbn; auto. Qed.

Lemma client_steps max d doms oss : changes d doms oss -> forall x, Forall (rendered max) (d :: doms) -> view x d ->
  ((forall n, n <= length doms -> exists y, apply_all max (firstn n oss) x = Some y /\ view y (nth n (d :: doms) d)) <->
   linked (fun a b => level [] a b /\ matched keeps a b) d doms).
Proof.
  induction 1 as [d|d d1 doms os oss Fo _ IH]; intros x R V.
  - cbn [linked]. split; [easy|]. intros _ n Hn. replace n with 0 by (cbn in Hn; lia). exists x. auto.
  - inversion R as [|? ? R0 Rs]; subst. inversion Rs as [|? ? R1 Rt]; subst.
    destruct R0 as (w & j & O & E & J). destruct R1 as (w1 & j1 & O1 & E1 & J1). pose proof (C51_exactly max w w1 d d1 j j1 O O1 E E1 J J1) as X.
    assert (forall n, n <= length doms -> nth n (d1 :: doms) d1 = nth n (d1 :: doms) d) as Hnth by (intros n Hn; apply nth_indep; cbn; lia).
    cbn [linked]. split.
    + intros H. destruct (H 1 ltac:(cbn; lia)) as (y & Hy & Vy). cbn [firstn apply_all nth] in Hy, Vy. destruct (apply max os x) as [y1|] eqn:Ey; [|discriminate]. injection Hy as ->.
      destruct (apply_view max os x d y V Ey) as (y' & Ey' & Vy'). split.
      * apply X. exists os, y'. split; [exact Fo|]. split; [exact Ey'|]. apply view_trans with y; [now apply view_sym|exact Vy].
      * apply (IH y Rs Vy). intros n Hn. rewrite Hnth by exact Hn. destruct (H (S n) ltac:(cbn; lia)) as (z & Hz & Vz). cbn [firstn apply_all] in Hz. rewrite Ey in Hz. exists z. split; [exact Hz|exact Vz].
    + intros [HL HR]. apply X in HL as (os' & b' & Ho & Ha & Vb). assert (os' = os) as -> by congruence.
      destruct (apply_view max os d x b' (view_sym _ _ V) Ha) as (y & Ey & Vy). assert (view y d1) as Vy1 by (apply view_trans with b'; [now apply view_sym|exact Vb]).
      pose proof (proj2 (IH y Rs Vy1) HR) as H. intros [|n] Hn; [exists x; auto|]. cbn in Hn. destruct (H n ltac:(lia)) as (z & Hz & Vz). rewrite Hnth in Vz by lia. exists z. cbn [firstn apply_all]. rewrite Ey. split; [exact Hz|exact Vz].
Qed.

(** Every session of every component: a client that holds the first page and applies the changesets sent to it holds the current page
    at all times if and only if each re-render in the session is one of those that come out right. *)
Theorem C63_client_exactly : forall max D I S E P (C : component D I S E P) data e0 p ms ctx c dom ls out,
  main_loop C data true ((e0, WhoAmI p) :: ms) = (Looping ctx c dom ls, out) ->
  exists c0 d0 l0 cs doms oss, c_new C e0 data p = Some c0 /\ c_render C c0 = Some (d0, l0) /\ lives C p c0 ms cs c /\ pages C cs doms /\
    out = wire (create_from_scratch d0 None) :: map wire oss /\ length oss = length doms /\
    (Forall (rendered max) (d0 :: doms) -> forall x, view x d0 ->
     ((forall n, n <= length doms -> exists y, apply_all max (firstn n oss) x = Some y /\ view y (nth n (d0 :: doms) d0)) <->
      linked (fun a b => level [] a b /\ matched keeps a b) d0 doms)).
Proof.
  intros max D I S E P C data e0 p ms ctx c dom ls out H. apply main_loop_spec in H as (_ & R & c0 & d0 & l0 & cs & doms & outs & H1 & H2 & H3 & H4 & H5 & ->).
  apply updates_changes in H5 as (oss & -> & Hc). exists c0, d0, l0, cs, doms, oss. split; [exact H1|]. split; [exact H2|]. split; [exact H3|]. split; [exact H4|]. split; [reflexivity|].
  split; [exact (changes_length _ _ _ Hc)|]. intros Hr x V. now apply client_steps.
Qed.
Print Assumptions C63_client_exactly.

(* ------------------------------------------------------------------ *)
(** ** The browser *)
Lemma browser_steps reparse max : standard reparse -> forall d doms oss, changes d doms oss -> forall x, Forall (fun d => rendered max d /\ neat d) (d :: doms) ->
  linked (fun a b => level [] a b /\ matched keeps a b /\ matched renamed_empty a b) d doms -> displays x d ->
  ((forall n, n <= length doms -> exists y, browse reparse (firstn n (map wire oss)) [x] = ([y], true) /\ displays y (nth n (d :: doms) d)) <->
   linked (matched carries) d doms).
Proof.
  intros Hre. induction 1 as [d|d d1 doms os oss Fo _ IH]; intros x R L V.
  - cbn [linked]. split; [easy|]. intros _ n Hn. replace n with 0 by (cbn in Hn; lia). exists x. auto.
  - inversion R as [|? ? R0 Rs]; subst. inversion Rs as [|? ? R1 Rt]; subst. destruct L as [(L1 & L2 & L3) L].
    destruct R0 as ((w & j & O & E & J) & C). destruct R1 as ((w1 & j1 & O1 & E1 & J1) & C1).
    assert (exists b', diff d (Some d1) = Some os /\ apply max os d = Some b' /\ view b' d1) as Hb.
    { destruct (proj2 (C51_exactly max w w1 d d1 j j1 O O1 E E1 J J1) (conj L1 L2)) as (os' & b' & Ho & Ha & Vb). assert (os' = os) as -> by congruence. exists b'. auto. }
    pose proof (C59_exactly reparse max w w1 d d1 j j1 os x Hre O O1 E E1 J J1 C C1 Hb L3 V) as X.
    assert (forall n, n <= length doms -> nth n (d1 :: doms) d1 = nth n (d1 :: doms) d) as Hnth by (intros n Hn; apply nth_indep; cbn; lia).
    cbn [linked]. split.
    + intros H. destruct (H 1 ltac:(cbn; lia)) as (y & Hy & Vy). cbn [firstn map browse nth] in Hy, Vy. destruct (on_message reparse (wire os) [x]) as [dc ok] eqn:Ey. injection Hy as -> Hk. rewrite andb_true_r in Hk. subst ok. split.
      * apply X. exists y. auto.
      * apply (IH y Rs L Vy). intros n Hn. rewrite Hnth by exact Hn. destruct (H (S n) ltac:(cbn; lia)) as (z & Hz & Vz). cbn [firstn map browse] in Hz. rewrite Ey in Hz.
        destruct (browse reparse (firstn n (map wire oss)) [y]) as [d2 ok2]. injection Hz as -> Hk. cbn in Hk. subst ok2. exists z. split; [reflexivity|exact Vz].
    + intros [HL HR]. apply X in HL as (y & Ey & Vy).
      pose proof (proj2 (IH y Rs L Vy) HR) as H. intros [|n] Hn; [exists x; auto|]. cbn in Hn. destruct (H n ltac:(lia)) as (z & Hz & Vz). rewrite Hnth in Vz by lia. exists z. cbn [firstn map browse]. rewrite Ey, Hz. split; [reflexivity|exact Vz].
Qed.
(** Every session of every component in which each changeset is right and only elements without content are renamed: the browser, starting
    from an empty document, executes every message to its end and shows the current page at all times if and only if every element that
    stays in a re-render is one of those the browser can carry over. *)
Theorem C63_browser_exactly : forall reparse max, standard reparse ->
  forall D I S E P (C : component D I S E P) data e0 p ms ctx c dom ls out,
  main_loop C data true ((e0, WhoAmI p) :: ms) = (Looping ctx c dom ls, out) ->
  exists c0 d0 l0 cs doms, c_new C e0 data p = Some c0 /\ c_render C c0 = Some (d0, l0) /\ lives C p c0 ms cs c /\ pages C cs doms /\
    length out = length (d0 :: doms) /\
    (Forall (fun d => rendered max d /\ neat d) (d0 :: doms) ->
     linked (fun a b => level [] a b /\ matched keeps a b /\ matched renamed_empty a b) d0 doms ->
     ((forall n, n <= length doms -> exists y, browse reparse (firstn (1 + n) out) [] = ([y], true) /\ displays y (nth n (d0 :: doms) d0)) <->
      linked (matched carries) d0 doms)).
Proof.
  intros reparse max Hre D I S E P C data e0 p ms ctx c dom ls out H. apply main_loop_spec in H as (_ & R & c0 & d0 & l0 & cs & doms & outs & H1 & H2 & H3 & H4 & H5 & ->).
  apply updates_changes in H5 as (oss & -> & Hc). exists c0, d0, l0, cs, doms. split; [exact H1|]. split; [exact H2|]. split; [exact H3|]. split; [exact H4|].
  split; [cbn; rewrite map_length; f_equal; exact (changes_length _ _ _ Hc)|]. intros Hr HL.
  inversion Hr as [|? ? ((w & j & O & E1 & J) & N0) Rs]; subst. destruct (into_numbered _ _ _ _ E1) as [N1 U1].
  assert (tidy d0) as T0 by (split; [apply (proper_wf max); apply (into_proper w max 0%N d0 j); auto|exact N0]).
  destruct (browser_first_paint_cut reparse d0 T0) as (os & Ho & y & V & Hy); [apply (numbered_range _ _ _ N1)|]. injection Ho as <-.
  rewrite <- (browser_steps reparse max Hre d0 doms oss Hc y Hr HL V).
  split; intros H n Hn; destruct (H n Hn) as (z & Hz & Vz); exists z; (split; [|exact Vz]); cbn [firstn Nat.add browse] in *; first [rewrite Hy in Hz|rewrite Hy];
    destruct (browse reparse (firstn n (map wire oss)) [y]) as [d2 ok2]; exact Hz.
Qed.
Print Assumptions C63_browser_exactly.
(** Not vacuous: a component that renames the listeners of a box and of the field in it at each input. The pages are not those of
    [safe_with browser_pair], and the session comes out right, in the tree and in the browser. If the field keeps its listener, it does not. *)
Definition renaming (keep : bool) : component unit unit nat unit unit :=
  Component unit unit nat unit unit (fun _ _ _ => Some 0) (fun _ n _ _ => Some (S n))
    (fun n => match into_element (box (dec (N.of_nat n)) (if keep then bs "m" else dec (N.of_nat (1 + n)))) 0 with Some (d, _) => Some (d, []) | None => None end).
Definition box_page (l1 l2 : str) : element := Element 0 (bs "div") [] [Listener l1 (bs "click")] [Element 1 (bs "input") [] [Listener l2 (bs "input")] [] None None] None None.
Lemma box_into l1 l2 : into_element (box l1 l2) 0 = Some (box_page l1 l2, 2%N).
Proof. reflexivity. Qed.
Lemma box_linked l1 l2 m1 m2 : level [] (box_page l1 l2) (box_page m1 m2) /\ matched keeps (box_page l1 l2) (box_page m1 m2) /\ matched renamed_empty (box_page l1 l2) (box_page m1 m2).
Proof.
  split; [|split].
  - constructor; [cbn; lia|]. apply LevelCons; [|apply LevelDrop]. constructor; [cbn; lia|]. apply LevelDrop.
  - repeat first [(left; reflexivity)|constructor].
  - repeat first [(left; reflexivity)|constructor].
Qed.
Lemma box_carries l1 l2 m1 m2 : l1 <> m1 -> l2 <> m2 -> matched carries (box_page l1 l2) (box_page m1 m2).
Proof.
  intros H1 H2. constructor; [split; [now left|]; split; [now left|]; right; apply MatCons; [|constructor]; constructor; [right; cbn; congruence|constructor]|].
  apply MatCons; [|constructor]. constructor; [split; [now left|]; split; [now left|]; right; constructor|constructor].
Qed.

Definition inputs3 : list (unit * mail unit unit) := [(tt, WhoAmI tt); (tt, Input tt); (tt, Input tt)].
Example C63_exactly_example : exists ls out,
  let d0 := box_page (bs "0") (bs "1") in let doms := [box_page (bs "1") (bs "2"); box_page (bs "2") (bs "3")] in
  main_loop (renaming false) tt true inputs3 = (Looping tt 2 (box_page (bs "2") (bs "3")) ls, out) /\
  Forall (fun d => rendered 1000 d /\ neat d) (d0 :: doms) /\
  linked (fun a b => level [] a b /\ matched keeps a b /\ matched renamed_empty a b) d0 doms /\ linked (matched carries) d0 doms /\
  browse plain_browser out [] = ([paint (box_page (bs "2") (bs "3"))], true).
Proof.
  eexists _, _. cbv zeta. split; [vm_compute; reflexivity|]. split; [|split; [|split; [|vm_compute; reflexivity]]].
  - assert (forall l1 l2, plus_free l1 -> plus_free l2 -> rendered 1000 (box_page l1 l2) /\ neat (box_page l1 l2)) as H.
    { intros l1 l2 H1 H2. split; [exists (box l1 l2), 2%N; split; [apply box_ok|]; split; [reflexivity|lia]|]. unfold box_page.
      constructor; [split; [split; reflexivity|]; split; [constructor|]; constructor; [exact H1|constructor]|]. constructor; [|constructor].
      constructor; [split; [split; reflexivity|]; split; [constructor|]; constructor; [exact H2|constructor]|constructor]. }
    constructor; [|constructor; [|constructor; [|constructor]]]; apply H; apply plus_freeb_ok; reflexivity.
  - split; [apply box_linked|]. split; [apply box_linked|exact Logic.I].
  - split; [apply box_carries; vm_compute; discriminate|]. split; [apply box_carries; vm_compute; discriminate|exact Logic.I].
Qed.
(** The field keeps its listener: after the first input the browser's field has none. *)
Example C63_exactly_lost : exists ls out y,
  main_loop (renaming true) tt true (firstn 2 inputs3) = (Looping tt 1 (box_page (bs "1") (bs "m")) ls, out) /\
  linked (fun a b => level [] a b /\ matched keeps a b /\ matched renamed_empty a b) (box_page (bs "0") (bs "m")) [box_page (bs "1") (bs "m")] /\
  ~ linked (matched carries) (box_page (bs "0") (bs "m")) [box_page (bs "1") (bs "m")] /\
  browse plain_browser out [] = ([y], true) /\ ~ listening y (bs "input", bs "m").
Proof.
  eexists _, _, _. split; [vm_compute; reflexivity|]. split; [split; [apply box_linked|exact Logic.I]|]. split; [|split; [vm_compute; reflexivity|]].
  - intros [H _]. inversion H as [? ? HB0 _]; subst. destruct HB0 as (_ & _ & HB). destruct HB as [HB|HB]; [vm_compute in HB; discriminate HB|]. inversion HB as [| |? ? ? ? HM _]; subst. inversion HM as [? ? HQ0 _]; subst. destruct HQ0 as [HQ|HQ]; [discriminate HQ|now apply HQ].
  - intros H. inversion H as [? ? ? ? ? Hx|? ? ? ? ? ? Hk Hl]; subst; [destruct Hx as [Hx|[]]; discriminate Hx|]. destruct Hk as [<-|[]]. inversion Hl as [? ? ? ? ? Hx|? ? ? ? ? ? Hk2 _]; subst; [destruct Hx|destruct Hk2].
Qed.
