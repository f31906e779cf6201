(** The virtual DOM: C49-C56. *)
From Verif Require Import Base HMap Num DomModel DomSpec DomProofs DomProofs2 DomProofs3 DomProofs4 HtmlModel.
From Coq Require Import Lia.

(** Small trees for the examples. *)
Definition leaf (i : N) (n : str) : element := Element i n [] [] [] None None.
Definition node (i : N) (n : str) (cs : list element) : element := Element i n [] [] cs None None.
Definition keyed_leaf (i : N) (k : str) : element := Element i (bs "p") [] [] [] None (Some k).
Ltac proper_tac := apply properb_ok; vm_compute; reflexivity.

(** ** C49. For every id-safe edit the changeset exists, and applying it to the old tree (or to any
    copy of it that looks the same) gives the new tree. *)
Theorem C49_apply_diff : forall max a b, proper max a -> proper max b -> safe a b ->
  exists os, diff a (Some b) = Some os /\
    forall x, view x a -> exists b', apply max os x = Some b' /\ view b' b.
Proof. exact diff_applies. Qed.
Print Assumptions C49_apply_diff.
(** A non-trivial safe edit: attributes and text change, a child is deleted, one changes its id, and a
    grandchild is added. *)
Definition edit_from : element :=
  Element 0 (bs "div") [(bs "class", bs "x"); (bs "lang", bs "en")] [] [leaf 1 (bs "p"); leaf 2 (bs "p"); leaf 3 (bs "p")] (Some (bs "old")) None.
Definition edit_to : element :=
  Element 0 (bs "main") [(bs "lang", bs "de"); (bs "title", bs "t")] [Listener (bs "l") (bs "click")]
    [leaf 1 (bs "h1"); Element 7 (bs "p") [] [] [leaf 8 (bs "a")] (Some (bs "new")) None] None None.
Example C49_example : proper (usize_max 32) edit_from /\ proper (usize_max 32) edit_to /\ safe edit_from edit_to /\
  exists os, diff edit_from (Some edit_to) = Some os /\ length os = 12 /\
    exists b', apply (usize_max 32) os edit_from = Some b' /\ b' <> edit_from.
Proof.
  split; [proper_tac|]. split; [proper_tac|]. split.
  - apply safe_plain; cbn.
    + exact I.
    + now left.
    + discriminate.
    + constructor; [|constructor]. intros i [<-|[]]. cbn. intuition discriminate.
    + apply ks_pair.
      * apply safe_plain; cbn; auto; constructor.
      * intros i. cbn. intuition lia.
      * apply ks_pair.
        -- apply safe_plain; cbn; auto; try discriminate. apply ks_new; [cbn; repeat constructor; cbn; tauto| |constructor].
           intros i. cbn. intuition lia.
        -- intros i. cbn. intuition lia.
        -- apply ks_extra.
  - vm_compute. eexists. split; [reflexivity|]. split; [reflexivity|]. eexists. split; [reflexivity|]. discriminate.
Qed.

(** ** C50. [numbered i a j]: ids are consecutive in document order, from [i] up to [j]; [fits a b]: nodes
    in the same position keep their id or, after a deletion, move back. *)
Theorem C50_rerender_in_sync : forall max a b i j i' j',
  proper max a -> proper max b -> numbered i a j -> numbered i' b j' -> unkeyed a -> unkeyed b -> fits a b ->
  exists os, diff a (Some b) = Some os /\
    forall x, view x a -> exists b', apply max os x = Some b' /\ view b' b.
Proof. intros max a b i j i' j' Pa Pb Na Nb Ua Ub Hal. apply diff_applies; auto. now apply (fits_safe b a i j i' j'). Qed.
Print Assumptions C50_rerender_in_sync.
(** In particular for two renders through [into_element] with fresh generators. *)
Theorem C50_rendered_pages : forall max w1 w2 a b j j',
  wrapped_ok w1 -> wrapped_ok w2 -> into_element w1 0 = Some (a, j) -> into_element w2 0 = Some (b, j') ->
  (j <= max + 1)%N -> (j' <= max + 1)%N -> fits a b ->
  exists os, diff a (Some b) = Some os /\
    forall x, view x a -> exists b', apply max os x = Some b' /\ view b' b.
Proof.
  intros max w1 w2 a b j j' O1 O2 E1 E2 J1 J2 Hal.
  destruct (into_numbered _ _ _ _ E1) as [N1 U1]. destruct (into_numbered _ _ _ _ E2) as [N2 U2].
  apply (C50_rerender_in_sync max a b 0 j 0 j'); auto; [apply (into_proper w1 max 0 a j)|apply (into_proper w2 max 0 b j')]; auto.
Qed.
Print Assumptions C50_rendered_pages.
(** A list that grows at its end. *)
Definition page (items : list str) : wrapped :=
  add_children (map (fun t => wrap KP [] t) items) (add_child (wrap KH1 [] (bs "List")) (wrap KDiv [(bs "class", bs "c")] [])).
Example C50_example : exists a b j j', into_element (page [bs "a"; bs "b"]) 0 = Some (a, j) /\ into_element (page [bs "a"; bs "c"; bs "d"]) 0 = Some (b, j') /\
  fits a b /\ wrapped_ok (page [bs "a"; bs "b"]) /\ j' = 5%N.
Proof.
  eexists _, _, _, _. split; [vm_compute; reflexivity|]. split; [vm_compute; reflexivity|]. split; [repeat constructor|].
  split; [|reflexivity]. repeat constructor. intros [].
Qed.

(** A page whose middle loses a subtree: the nodes after it are renumbered. *)
Example C50_example_shrink : exists a b j j',
  into_element (add_children [add_child (wrap KA [] (bs "x")) (wrap KP [] []); wrap KP [] (bs "y")] (wrap KDiv [] [])) 0 = Some (a, j) /\
  into_element (add_children [wrap KP [] []; wrap KP [] (bs "z")] (wrap KDiv [] [])) 0 = Some (b, j') /\
  fits a b /\ j = 4%N /\ j' = 3%N /\
  exists os b', diff a (Some b) = Some os /\ apply (usize_max 32) os a = Some b' /\ view b' b.
Proof.
  eexists _, _, _, _. split; [vm_compute; reflexivity|]. split; [vm_compute; reflexivity|].
  split. { apply FitsSame; [reflexivity|]. apply FitsCons; [|apply FitsCons; [|constructor]].
    - apply FitsSame; [reflexivity|constructor].
    - apply FitsBack; try reflexivity. constructor. }
  split; [reflexivity|]. split; [reflexivity|].
  eexists _, _. split; [vm_compute; reflexivity|]. split; [vm_compute; reflexivity|]. apply view_refl.
Qed.

(** ** C51: when a subtree that is not the last one grows, the page goes wrong: in the first case the
    changeset is applied to the wrong nodes, in the second it cannot be applied at all. *)
Definition grow1 : wrapped := add_children [wrap KP [] (bs "a"); wrap KP [] (bs "b")] (wrap KDiv [] []).
Definition grow2 : wrapped := add_children [add_child (wrap KA [] (bs "x")) (wrap KP [] (bs "a")); wrap KP [] (bs "b")] (wrap KDiv [] []).
Definition grow3 : wrapped := add_children [wrap KDiv [] []; wrap KA [] (bs "a")] (wrap KDiv [] []).
Definition grow4 : wrapped := add_children [add_child (wrap KA [] (bs "x")) (wrap KDiv [] []); wrap KP [] (bs "a")] (wrap KDiv [] []).
Theorem C51_all_rerenders_refuted :
  (exists a b os b', into_element grow1 0 = Some (a, 3%N) /\ into_element grow2 0 = Some (b, 4%N) /\
     diff a (Some b) = Some os /\ apply (usize_max 64) os a = Some b' /\ ~ view b' b) /\
  (exists a b os, into_element grow3 0 = Some (a, 3%N) /\ into_element grow4 0 = Some (b, 4%N) /\
     diff a (Some b) = Some os /\ apply (usize_max 64) os a = None).
Proof.
  split.
  - eexists _, _, _, _. split; [vm_compute; reflexivity|]. split; [vm_compute; reflexivity|].
    split; [vm_compute; reflexivity|]. split; [vm_compute; reflexivity|].
    intros V. apply view_ids in V. vm_compute in V. discriminate.
  - eexists _, _, _. split; [vm_compute; reflexivity|]. split; [vm_compute; reflexivity|].
    split; [vm_compute; reflexivity|]. vm_compute. reflexivity.
Qed.
Print Assumptions C51_all_rerenders_refuted.
(** What holds of all re-renders. *)
Theorem C51_rerenders_partial : forall max w1 w2 a b j j',
  wrapped_ok w1 -> wrapped_ok w2 -> into_element w1 0 = Some (a, j) -> into_element w2 0 = Some (b, j') ->
  (j <= max + 1)%N -> (j' <= max + 1)%N -> fits a b ->
  exists os b', diff a (Some b) = Some os /\ apply max os a = Some b' /\ view b' b.
Proof.
  intros max w1 w2 a b j j' O1 O2 E1 E2 J1 J2 Hf.
  destruct (C50_rendered_pages max w1 w2 a b j j' O1 O2 E1 E2 J1 J2 Hf) as (os & Ho & H).
  destruct (H a (view_refl a)) as (b' & H1 & H2). exists os, b'. auto.
Qed.
Print Assumptions C51_rerenders_partial.

(** ** C52. The changeset is empty exactly when nothing observable changed. *)
Theorem C52_unchanged : forall max a b, proper max a -> proper max b -> unkeyed a -> unkeyed b ->
  (diff a (Some b) = Some [] <-> view a b).
Proof. intros max a b. apply unchanged_iff. Qed.
Print Assumptions C52_unchanged.
Example C52_example :
  let a := Element 0 (bs "p") [(bs "a", bs "1"); (bs "b", bs "2")] [] [leaf 1 (bs "a")] None None in
  let b := Element 0 (bs "p") [(bs "b", bs "2"); (bs "a", bs "1")] [] [leaf 1 (bs "a")] None None in
  proper (usize_max 32) a /\ unkeyed a /\ a <> b /\ diff a (Some b) = Some [] /\ diff a (Some (leaf 0 (bs "p"))) <> Some [].
Proof.
  cbv zeta. split; [proper_tac|]. split; [apply unkeyedb_ok; reflexivity|]. split; [discriminate|]. split; [reflexivity|]. vm_compute. discriminate.
Qed.

(** ** C53: reordered children give an empty changeset, an appended child gives a changeset that
    cannot be applied, and a single new child makes diff itself panic. *)
Definition keyed_list (l : list (N * str)) : element := node 0 (bs "ul") (map (fun p => keyed_leaf (fst p) (snd p)) l).
Theorem C53_keyed_children_refuted :
  (let a := keyed_list [(1%N, bs "a"); (2%N, bs "b")] in let b := keyed_list [(2%N, bs "b"); (1%N, bs "a")] in
   diff a (Some b) = Some [] /\ ~ view a b) /\
  (let a := keyed_list [(1%N, bs "a")] in let b := keyed_list [(1%N, bs "a"); (2%N, bs "b")] in
   exists os, diff a (Some b) = Some os /\ apply (usize_max 64) os a = None) /\
  (let a := keyed_list [] in let b := keyed_list [(1%N, bs "a")] in diff a (Some b) = None).
Proof.
  split; [|split]; cbv zeta.
  - split; [reflexivity|]. intros V. apply view_ids in V. vm_compute in V. discriminate.
  - eexists. split; vm_compute; reflexivity.
  - reflexivity.
Qed.
Print Assumptions C53_keyed_children_refuted.
(** What works: dropping any of the keyed children and updating the others in place. *)
Theorem C53_keyed_delete_and_update_partial : forall max a b (keep : element -> bool) (g : element -> element),
  proper max a -> proper max b -> NoDup (ids a) -> el_id a = el_id b ->
  all_keyed a = true -> NoDup (map el_key (el_children a)) ->
  el_children b = map g (filter keep (el_children a)) ->
  (forall c, In c (el_children a) -> el_key (g c) = el_key c /\ safe c (g c) /\ incl (ids (g c)) (ids c)) ->
  exists os b', diff a (Some b) = Some os /\ apply max os a = Some b' /\ view b' b.
Proof. exact keyed_update_works. Qed.
Print Assumptions C53_keyed_delete_and_update_partial.
Example C53_example :
  let a := keyed_list [(1%N, bs "a"); (2%N, bs "b"); (3%N, bs "c")] in
  let g := with_text (Some (bs "t")) in
  let keep := fun c => negb (N.eqb (el_id c) 2) in
  let b := with_children (map g (filter keep (el_children a))) a in
  proper (usize_max 64) a /\ proper (usize_max 64) b /\ NoDup (ids a) /\ all_keyed a = true /\ NoDup (map el_key (el_children a)) /\
  (forall c, In c (el_children a) -> el_key (g c) = el_key c /\ safe c (g c) /\ incl (ids (g c)) (ids c)) /\
  exists os, diff a (Some b) = Some os /\ length os = 3.
Proof.
  cbv zeta. split; [proper_tac|]. split; [proper_tac|]. split. { repeat constructor; cbn; intuition discriminate. }
  split; [reflexivity|]. split. { repeat constructor; cbn; intuition discriminate. }
  split.
  - intros c [<-|[<-|[<-|[]]]]; (split; [reflexivity|]; split; [apply safe_plain; cbn; auto; constructor|intros x Hx; exact Hx]).
  - eexists. split; vm_compute; reflexivity.
Qed.

(** ** C54: one new keyed child makes diff panic. *)
Theorem C54_diff_total_refuted : exists a b, proper (usize_max 64) a /\ proper (usize_max 64) b /\ diff a (Some b) = None.
Proof. exists (keyed_list []), (keyed_list [(1%N, bs "a")]). split; [proper_tac|]. split; [proper_tac|reflexivity]. Qed.
Print Assumptions C54_diff_total_refuted.
(** It never does if no node of the new tree has a single child that carries a key. *)
Theorem C54_diff_total_partial : forall a b,
  every (fun e => match el_children e with [c] => el_key c = None | _ => True end) b -> diff a (Some b) <> None.
Proof. intros a b H. now apply diff_total. Qed.
Print Assumptions C54_diff_total_partial.
(** In particular for whatever [into_element] produces. *)
Theorem C54_rendered_diff_total_partial : forall a w i b j, into_element w i = Some (b, j) -> diff a (Some b) <> None.
Proof.
  intros a w i b j H. apply diff_total. apply into_numbered in H as [_ H]. clear a w i j.
  induction b as [bi bn ba bl bc bt bk IH] using element_ind2. pose proof (every_children _ _ H) as Hc. cbn [el_children] in Hc. constructor.
  - cbn [el_children]. destruct bc as [|c [|c2 bc]]; auto. inversion Hc as [|? ? H1 _]; subst. exact (every_root _ _ H1).
  - cbn [el_children]. clear H. induction IH as [|c cs H1 _ IHcs]; [constructor|]. inversion Hc; subst. constructor; [exact (H1 H2)|auto].
Qed.
Print Assumptions C54_rendered_diff_total_partial.
Example C54_example : exists b j, into_element (page [bs "a"; bs "b"]) 3 = Some (b, j) /\ diff (keyed_list [(1%N, bs "a")]) (Some b) <> None.
Proof. eexists _, _. split; [vm_compute; reflexivity|]. apply C54_rendered_diff_total_partial with (w := page [bs "a"; bs "b"]) (i := 3%N) (j := 7%N). vm_compute. reflexivity. Qed.

(** ** C55. The ids in document order are head, head + 1, ..., and the new head is the next one. *)
Theorem C55_ids : forall w head e head', into_element w head = Some (e, head') ->
  ids e = map (fun n => head + N.of_nat n)%N (seq 0 (length (ids e))) /\
  head' = (head + N.of_nat (length (ids e)))%N /\ NoDup (ids e).
Proof.
  intros w i e j H. apply into_numbered in H as [H _]. split; [now apply numbered_seq in H|]. split; [now apply numbered_count in H|].
  now apply numbered_range in H.
Qed.
Print Assumptions C55_ids.
Example C55_example : exists e, into_element (page [bs "a"; bs "b"]) 5 = Some (e, 9%N) /\ ids e = [5; 6; 7; 8]%N.
Proof. eexists. split; vm_compute; reflexivity. Qed.

(** ** C56: headings lose their children, a select becomes a div, a line break loses its attributes and
    listeners, and a text node panics. *)
Theorem C56_faithful_refuted :
  (exists e j, into_element (add_child (wrap KA [] (bs "x")) (wrap KH1 [] [])) 0 = Some (e, j) /\ el_children e = []) /\
  (exists e j, into_element (wrap KSelect [] []) 0 = Some (e, j) /\ el_name e = bs "div") /\
  (exists e j, into_element (add_listener (Listener (bs "l") (bs "click")) (wrap KBr [] [])) 0 = Some (e, j) /\ el_listeners e = []) /\
  into_element (wrap KText [] (bs "hello")) 0 = None /\
  (forall i, exists w, wrapped_ok w /\ forall e j, into_element w i = Some (e, j) -> ~ faithful w e).
Proof.
  split; [eexists _, _; split; vm_compute; reflexivity|]. split; [eexists _, _; split; vm_compute; reflexivity|].
  split; [eexists _, _; split; vm_compute; reflexivity|]. split; [reflexivity|].
  intros i. exists (wrap KSelect [] []). split; [repeat constructor|]. intros e j [= <- <-] F. inversion F.
Qed.
Print Assumptions C56_faithful_refuted.
Theorem C56_faithful_partial : forall w i, supported w -> exists e j, into_element w i = Some (e, j) /\ faithful w e.
Proof. intros w i H. now apply supported_faithful. Qed.
Print Assumptions C56_faithful_partial.
(** [supported] is exact: no other page survives the conversion. *)
Theorem C56_exactly_supported_partial : forall w i,
  (exists e j, into_element w i = Some (e, j) /\ faithful w e) <-> supported w.
Proof.
  intros w i. split; [|intros H; now apply supported_faithful]. revert i.
  induction w as [k a t ls cs IH] using wrapped_ind2. intros i (e & j & E & F). rewrite into_element_eq in E.
  assert (forall h es h', into_list cs h = Some (es, h') -> Forall2 faithful cs es -> Forall supported cs) as Hl.
  { clear -IH. induction IH as [|c cs H1 _ IHcs]; intros h es h'; cbn [into_list]; [constructor|].
    destruct (into_element c h) as [[e h1]|] eqn:E1; [|discriminate]. destruct (into_list cs h1) as [[es1 h2]|] eqn:E2; [|discriminate].
    intros [= <- <-] F. inversion F as [|? ? ? ? F1 F2]; subst. constructor; eauto. }
  destruct k; cbn [arm_of arm_children arm_name arm_attrs arm_listeners arm_text] in E;
    try discriminate E;
    try (destruct (into_list cs (i + 1)) as [[es h]|] eqn:El; [|discriminate E]);
    injection E as <- <-; inversion F as [? ? ? ? ? ? ? ? Fc]; subst;
    try (apply SupNest; [cbn; tauto|now apply (Hl _ _ _ El)]);
    try (inversion Fc; subst; apply SupLeaf; cbn; tauto);
    try (inversion Fc; subst; apply SupBr).
Qed.
Print Assumptions C56_exactly_supported_partial.
(** Nodes are built by calls of listener, child and children on a wrapped node: all of them are kept, in the
    order of the calls. *)
Inductive build_call := CallListener (l : listener) | CallChild (c : wrapped) | CallChildren (cs : list wrapped).
Definition build_step (w : wrapped) (c : build_call) : wrapped :=
  match c with CallListener l => add_listener l w | CallChild x => add_child x w | CallChildren xs => add_children xs w end.
Theorem C56_built_in_order : forall k attrs text calls,
  let w := fold_left build_step calls (wrap k attrs text) in
  w_kind w = k /\ w_attrs w = attrs /\ w_text w = text /\
  w_listeners w = concat (map (fun c => match c with CallListener l => [l] | _ => [] end) calls) /\
  w_children w = concat (map (fun c => match c with CallListener _ => [] | CallChild x => [x] | CallChildren xs => xs end) calls).
Proof.
  intros k attrs text calls. cbv zeta.
  assert (forall w, let w' := fold_left build_step calls w in
    w_kind w' = w_kind w /\ w_attrs w' = w_attrs w /\ w_text w' = w_text w /\
    w_listeners w' = w_listeners w ++ concat (map (fun c => match c with CallListener l => [l] | _ => [] end) calls) /\
    w_children w' = w_children w ++ concat (map (fun c => match c with CallListener _ => [] | CallChild x => [x] | CallChildren xs => xs end) calls)) as H.
  { induction calls as [|c calls IH]; intros w; cbn [fold_left map concat]; [now rewrite !app_nil_r|].
    cbv zeta in IH |- *. destruct (IH (build_step w c)) as (-> & -> & -> & -> & ->). destruct w, c; cbn; rewrite <- ?app_assoc; auto. }
  exact (H (wrap k attrs text)).
Qed.
Print Assumptions C56_built_in_order.
Example C56_example : supported (page [bs "a"; bs "b"]).
Proof. apply SupNest; [cbn; tauto|]. repeat constructor; cbn; tauto. Qed.

(** ** C81. Flat pages: a node with any list of childless nodes in it. Whatever the two pages contain, the change is
    computed and lands exactly. With no children at all this is the property the repository fuzzes
    (puck_liveview/tests/diffing.rs:10-24). *)
Definition flat (w : wrapped) : Prop :=
  w_kind w <> KText /\ hm_wf (w_attrs w) /\
  Forall (fun c => w_kind c <> KText /\ hm_wf (w_attrs c) /\ w_children c = []) (w_children w).
Lemma flat_list cs : Forall (fun c => w_kind c <> KText /\ hm_wf (w_attrs c) /\ w_children c = []) cs ->
  forall h, exists es, into_list cs h = Some (es, (h + N.of_nat (length cs))%N) /\
    Forall (fun e => el_children e = []) es /\ map el_id es = map (fun n => (h + N.of_nat n)%N) (seq 0 (length cs)).
Proof.
  induction 1 as [|c cs (Hk & Ha & Hc) _ IH]; intros h; cbn [into_list length seq map].
  - exists []. rewrite N.add_0_r. repeat split. constructor.
  - destruct c as [k a t ls cc]. cbn [w_kind w_attrs w_children] in *. subst cc.
    assert (exists e, into_element (Wrapped k a t ls []) h = Some (e, (h + 1)%N) /\ el_children e = [] /\ el_id e = h) as (e & He & Hn & Hi).
    { rewrite into_element_eq. destruct k; cbn [arm_of arm_children into_list]; try congruence; eexists; repeat split. }
    rewrite He. destruct (IH (h + 1)%N) as (es & E & Hes & Hid). rewrite E. exists (e :: es). split; [do 2 f_equal; lia|].
    split; [now constructor|]. cbn [map]. rewrite Hi, Hid, N.add_0_r. f_equal. rewrite <- seq_shift, map_map. apply map_ext. intros n. lia.
Qed.
Lemma flat_fits_list es : forall es' n n' h, Forall (fun e => el_children e = []) es -> Forall (fun e => el_children e = []) es' ->
  map el_id es = map (fun n => (h + N.of_nat n)%N) n -> map el_id es' = map (fun n => (h + N.of_nat n)%N) n' ->
  (exists k, n = seq k (length es) /\ n' = seq k (length es')) -> fits_list es es'.
Proof.
  induction es as [|e es IH]; intros [|e' es'] n n' h He He' Hi Hi' (k & -> & ->); try constructor.
  - inversion He as [|? ? He1 _]; inversion He' as [|? ? He1' _]; subst. apply FitsSame; [|rewrite He1, He1'; constructor]. cbn in Hi, Hi'. congruence.
  - inversion He; inversion He'; subst. cbn [length seq map] in Hi, Hi'. injection Hi as _ Hi. injection Hi' as _ Hi'. eapply IH; eauto.
Qed.
Lemma flat_into w h : flat w -> exists e es, into_element w h = Some (e, (h + 1 + N.of_nat (length es))%N) /\ el_id e = h /\ el_children e = es /\
  Forall (fun e => el_children e = []) es /\ map el_id es = map (fun n => (h + 1 + N.of_nat n)%N) (seq 0 (length es)) /\ length es <= length (w_children w).
Proof.
  destruct w as [k a t ls cs]. intros (Hk & Ha & Hc). cbn [w_kind w_attrs w_children] in *. rewrite into_element_eq.
  destruct (flat_list cs Hc (h + 1)%N) as (es & E & Hes & Hid). rewrite E.
  assert (length es = length cs) as L by (apply (f_equal (@length N)) in Hid; now rewrite !map_length, seq_length in Hid).
  destruct k; cbn [arm_of arm_children]; try congruence; eexists;
  solve [exists es; rewrite L; repeat split; auto | exists []; cbn [length]; rewrite N.add_0_r; repeat split; auto; lia].
Qed.
Lemma flat_ok w : flat w -> wrapped_ok w.
Proof.
  destruct w as [k a t ls cs]. intros (Hk & Ha & Hc). cbn [w_kind w_attrs w_children] in *. constructor; [exact Ha|].
  eapply Forall_impl; [|exact Hc]. intros [k' a' t' ls' cs'] (_ & H1 & H2). cbn [w_attrs w_children] in *. subst. constructor; auto.
Qed.
Theorem C81_flat_pages : forall max w1 w2, flat w1 -> flat w2 ->
  (N.of_nat (length (w_children w1)) <= max)%N -> (N.of_nat (length (w_children w2)) <= max)%N ->
  exists a j b j', into_element w1 0 = Some (a, j) /\ into_element w2 0 = Some (b, j') /\
  exists os, diff a (Some b) = Some os /\ forall x, view x a -> exists b', apply max os x = Some b' /\ view b' b.
Proof.
  intros max w1 w2 F1 F2 L1 L2. destruct (flat_into w1 0 F1) as (a & es & E1 & I1 & C1 & Hc1 & H1 & Hl1). destruct (flat_into w2 0 F2) as (b & es' & E2 & I2 & C2 & Hc2 & H2 & Hl2).
  do 4 eexists. split; [exact E1|]. split; [exact E2|].
  apply (C50_rendered_pages max w1 w2 a b _ _ (flat_ok _ F1) (flat_ok _ F2) E1 E2); [clear -L1 Hl1; lia|clear -L2 Hl2; lia|]. apply FitsSame; [congruence|]. rewrite C1, C2.
  apply (flat_fits_list es es' _ _ 1%N Hc1 Hc2 H1 H2). now exists 0.
Qed.
Print Assumptions C81_flat_pages.
(** Two bare nodes: the fuzzed property. *)
Theorem C81_bare_nodes : forall max k1 a1 t1 k2 a2 t2, k1 <> KText -> k2 <> KText -> hm_wf a1 -> hm_wf a2 ->
  exists a j b j' os b', into_element (wrap k1 a1 t1) 0 = Some (a, j) /\ into_element (wrap k2 a2 t2) 0 = Some (b, j') /\
    diff a (Some b) = Some os /\ apply max os a = Some b' /\ view b' b.
Proof.
  intros max k1 a1 t1 k2 a2 t2 K1 K2 A1 A2. destruct (C81_flat_pages max (wrap k1 a1 t1) (wrap k2 a2 t2)) as (a & j & b & j' & E1 & E2 & os & Ho & Hv);
    [repeat split; auto; constructor|repeat split; auto; constructor|cbn; lia|cbn; lia|].
  destruct (Hv a (view_refl a)) as (b' & H1 & H2). now exists a, j, b, j', os, b'.
Qed.
Print Assumptions C81_bare_nodes.
(** Not vacuous, and depth matters: these pages are flat, the pages of C51 (one level deeper) are not. *)
Example C81_example : flat (page [bs "a"; bs "b"]) /\ flat (page []) /\ flat (add_child (wrap KBr [] []) (wrap KForm [(bs "id", bs "x")] [])).
Proof. repeat split; try discriminate; repeat constructor; try discriminate; cbn; tauto. Qed.
