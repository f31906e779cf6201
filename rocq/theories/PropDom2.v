(** The virtual DOM, exact forms: C53, C54, C99, C100. *)
From Coq Require Import Lia Permutation.
From Verif Require Import Base HMap Num DomModel DomSpec DomProofs DomProofs2 DomProofs3 DomProofs4 DomKeyed DomLocal DomApply PropDom.

(** ** C53, what happens instead. If the new children are old ones (edited, some of them left out) in any order
    whatever, the tree that results shows them in the OLD order. *)
Theorem C53_old_order_kept : forall max a b (keep : element -> bool) (g : element -> element),
  proper max a -> proper max b -> NoDup (ids a) -> el_id a = el_id b ->
  keyed_kids_of a -> NoDup (map el_key (el_children a)) ->
  Permutation (el_children b) (map g (filter keep (el_children a))) ->
  (forall c, In c (el_children a) -> el_key (g c) = el_key c /\ safe c (g c) /\ incl (ids (g c)) (ids c)) ->
  exists os b', diff a (Some b) = Some os /\ apply max os a = Some b' /\
    Forall2 view (el_children b') (map g (filter keep (el_children a))) /\
    (view b' b <-> Forall2 view (el_children b) (map g (filter keep (el_children a)))).
Proof.
  intros max a b keep g Pa Pb Na Hi Ka Nk Hp Hg. destruct (keyed_order max a b keep g Pa Pb Na Hi (proj2 (keyed_iff a) Ka) Nk Hp Hg) as (os & b' & E1 & E2 & V).
  exists os, b'. split; [exact E1|]. split; [exact E2|].
  assert (Forall2 view (el_children b') (map g (filter keep (el_children a)))) as F
    by (destruct b; cbn [with_children] in V; inversion V; subst; assumption).
  split; [exact F|]. assert (forall l1 l2, Forall2 view l1 l2 -> forall l3, Forall2 view l1 l3 -> Forall2 view l3 l2) as T.
  { induction 1 as [|x y l1 l2 Hxy _ IH]; intros l3 H3; inversion H3; subst; constructor; auto. eapply view_trans; [apply view_sym|]; eassumption. }
  assert (forall l1 l2, Forall2 view l1 l2 -> Forall2 view l2 l1) as Sy by (induction 1; constructor; auto using view_sym).
  split.
  - intros V2. apply (T (el_children b')); [exact F|]. inversion V2; subst; assumption.
  - intros F2. apply (view_trans _ (with_children (map g (filter keep (el_children a))) b)); [exact V|].
    destruct b as [i n at_ l cs t k]. cbn [with_children]. constructor; [apply hm_equiv_refl|]. apply Sy. exact F2.
Qed.
Print Assumptions C53_old_order_kept.
Example C53_old_order_example :
  let a := keyed_list [(1%N, bs "a"); (2%N, bs "b"); (3%N, bs "c")] in
  let b := keyed_list [(3%N, bs "c"); (1%N, bs "a")] in
  let keep := fun c => negb (N.eqb (el_id c) 2) in let g := fun c : element => c in
  proper (usize_max 64) a /\ proper (usize_max 64) b /\ NoDup (ids a) /\ keyed_kids_of a /\ NoDup (map el_key (el_children a)) /\
  Permutation (el_children b) (map g (filter keep (el_children a))) /\
  (forall c, In c (el_children a) -> el_key (g c) = el_key c /\ safe c (g c) /\ incl (ids (g c)) (ids c)) /\
  ~ Forall2 view (el_children b) (map g (filter keep (el_children a))).
Proof.
  cbv zeta. split; [proper_tac|]. split; [proper_tac|]. split. { repeat constructor; cbn; intuition discriminate. }
  split. { repeat constructor; discriminate. } split. { repeat constructor; cbn; intuition discriminate. }
  split. { cbn. apply perm_swap. } split.
  - intros c [<-|[<-|[<-|[]]]]; (split; [reflexivity|]; split; [apply safe_plain; cbn; auto; constructor|intros x Hx; exact Hx]).
  - cbn. intros H. inversion H as [|? ? ? ? V]. inversion V.
Qed.
(** And a child with a key that no old child has cannot be inserted: the changeset panics when it is applied, on the
    old tree and on every tree with the same ids, as soon as the new child's id is new. *)
Theorem C53_new_child_panics : forall max a b d os x, keyed_kids_of a -> keyed_kids_of b -> NoDup (ids b) ->
  In d (el_children b) -> ~ In (el_key d) (map el_key (el_children a)) -> ~ In (el_id d) (ids a) ->
  ids x = ids a -> diff a (Some b) = Some os -> apply max os x = None.
Proof. intros max a b d os x Ka Kb Nb Hd Hk Hi Hx. apply (insertion_panics max a b d os x); auto; now apply keyed_iff. Qed.
Print Assumptions C53_new_child_panics.
Example C53_new_child_example :
  let a := keyed_list [(1%N, bs "a"); (2%N, bs "b")] in
  let d := keyed_leaf 3 (bs "c") in
  let b := keyed_list [(1%N, bs "a"); (3%N, bs "c"); (2%N, bs "b")] in
  keyed_kids_of a /\ keyed_kids_of b /\ NoDup (ids b) /\ In d (el_children b) /\ ~ In (el_key d) (map el_key (el_children a)) /\
  ~ In (el_id d) (ids a) /\ exists os, diff a (Some b) = Some os /\ length os = 1.
Proof.
  cbv zeta. split. { repeat constructor; discriminate. } split. { repeat constructor; discriminate. }
  split. { repeat constructor; cbn; intuition discriminate. } split. { right. now left. }
  split. { cbn. intuition discriminate. } split. { cbn. intuition discriminate. } eexists. split; vm_compute; reflexivity.
Qed.

(** ** C54, exactly: diffing panics if and only if, walking both trees together, one comes to a node whose only new child
    carries a key that none of the old children (all keyed) has. *)
Theorem C54_panics_exactly : forall a b, diff a (Some b) = None <-> meets_new_single a b.
Proof. intros a b. exact (diff_panics b a). Qed.
Print Assumptions C54_panics_exactly.
Theorem C54_deletion_never_panics : forall a, diff a None <> None.
Proof. intros a. cbn. discriminate. Qed.
Print Assumptions C54_deletion_never_panics.
Example C54_exact_example :
  let a c := node 0 (bs "ul") [leaf 1 (bs "p"); node 2 (bs "p") c] in
  meets_new_single (a [keyed_leaf 3 (bs "a")]) (a [keyed_leaf 3 (bs "b")]) /\ diff (a [keyed_leaf 3 (bs "a")]) (Some (a [keyed_leaf 3 (bs "b")])) = None /\
  ~ meets_new_single (a [keyed_leaf 3 (bs "a")]) (a [keyed_leaf 4 (bs "a")]).
Proof.
  cbv zeta. split; [|split; [reflexivity|]].
  - eapply (mn_pos _ _ 1); [|reflexivity|reflexivity|].
    + intros [H _]. inversion H. contradiction.
    + apply (mn_here _ _ (keyed_leaf 3 (bs "b")) (bs "b")); [repeat constructor; discriminate|reflexivity|reflexivity|]. cbn. intros [H|[]]. discriminate.
  - intros H. apply C54_panics_exactly in H. discriminate.
Qed.

(** ** C99: updates are local. *)
(** If the new tree differs from the old one only in one subtree, the changeset is the changeset of that subtree. *)
Theorem C99_only_the_changed_subtree : forall max p a b c d,
  proper max a -> unkeyed a -> unkeyed b -> at_path p a = Some c -> put_at p d a b -> diff a (Some b) = diff c (Some d).
Proof. intros max p a b c d Pa Ua Ub Hc Hp. exact (diff_local max p d a b c Hp Hc Pa Ua Ub). Qed.
Print Assumptions C99_only_the_changed_subtree.
(** However the rest of the page changes, no operation names a node of a subtree that looks the same in the same place. *)
Theorem C99_unchanged_parts_untouched : forall max p a b c d os o i,
  proper max a -> proper max b -> NoDup (ids a) -> NoDup (ids b) -> unkeyed a -> unkeyed b ->
  at_path p a = Some c -> at_path p b = Some d -> view c d ->
  diff a (Some b) = Some os -> In o os -> In i (ids c) ->
  op_id o <> dec i /\ forall n, op_instr o <> CreateTag n (Some (dec i)).
Proof.
  intros max p a b c d os o i Pa Pb Na Nb Ua Ub Hc Hd V E Ho Hi. split; [intros Hx|intros n Hx]; apply (untouched max p a b c d os o i Pa Pb Na Nb Ua Ub Hc Hd V E Ho); auto.
  - now left.
  - right. now exists n.
Qed.
Print Assumptions C99_unchanged_parts_untouched.
(** A changed text, anywhere in the page, is one operation. *)
Theorem C99_one_text_one_operation : forall max p a b i n at_ ls cs t k v,
  proper max a -> unkeyed a -> at_path p a = Some (Element i n at_ ls cs t k) -> t <> Some v ->
  put_at p (Element i n at_ ls cs (Some v) k) a b -> diff a (Some b) = Some [Op (dec i) (SetText v)].
Proof.
  intros max p a b i n at_ ls cs t k v Pa Ua Hc Ht Hp.
  assert (forall q e x, at_path q e = Some x -> proper max e -> unkeyed e -> proper max x /\ unkeyed x) as G.
  { clear. induction q as [|m q IH]; intros e x E P U; cbn [at_path] in E; [injection E as ->; auto|].
    destruct (nth_error (el_children e) m) as [y|] eqn:Ey; [|discriminate]. apply every_children in P, U. rewrite Forall_forall in P, U. apply nth_error_In in Ey.
    apply (IH y x E); [now apply P|now apply U]. }
  destruct (G p a _ Hc Pa Ua) as [Px Ux].
  assert (unkeyed (Element i n at_ ls cs (Some v) k)) as Uv by (constructor; [exact (every_root _ _ Ux)|exact (every_children _ _ Ux)]).
  assert (forall q e e' x, put_at q x e e' -> unkeyed e -> unkeyed x -> unkeyed e') as H.
  { clear. intros q e e' x H. induction H as [x e|m q x l1 c c' l2 i n at_ ls t k Hm H IH]; intros U Uv; [exact Uv|].
    pose proof (every_root _ _ U) as Ur. pose proof (every_children _ _ U) as Uc. cbn [el_key el_children] in Ur, Uc. constructor; [exact Ur|]. cbn [el_children].
    apply Forall_app in Uc as [U1 U2]. inversion U2; subst. apply Forall_app. split; [exact U1|]. constructor; auto. now apply IH. }
  rewrite (diff_local max p _ a b _ Hp Hc Pa Ua (H _ _ _ _ Hp Ua Uv)). cbn [diff]. rewrite diff_to_eq.
  assert (diff_own (Element i n at_ ls cs t k) (Element i n at_ ls cs (Some v) k) = [Op (dec i) (SetText v)]) as ->.
  { unfold diff_own, diff_name, diff_attributes, diff_text, diff_listeners. cbn [el_name el_attrs el_text el_listeners].
    rewrite str_eqb_refl. pose proof (every_root _ _ Px) as [_ W]. cbn [el_attrs] in W.
    assert (hm_eqb at_ at_ = true) as -> by (apply hm_eqb_equiv; auto using hm_equiv_refl).
    assert (listeners_eqb ls ls = true) as -> by now apply listeners_eqb_eq.
    destruct (text_eqb t (Some v)) eqn:E; [apply text_eqb_eq in E; contradiction|reflexivity]. }
  cbn [el_children el_id]. unfold diff_id. cbn [el_id]. rewrite N.eqb_refl.
  pose proof (every_children _ _ Px) as Pc. pose proof (every_children _ _ Ux) as Uc. cbn [el_children] in Pc, Uc.
  assert ((if all_keyed (Element i n at_ ls cs t k) && all_keyed (Element i n at_ ls cs (Some v) k) then keyed_kids cs cs else plain_kids i cs cs) = Some []) as ->.
  { destruct (all_keyed _ && _) eqn:Ek.
    - apply andb_true_iff in Ek as [Ek _]. apply unkeyed_kids in Ek; [|exact Ux]. cbn [el_children] in Ek. subst cs. reflexivity.
    - unfold plain_kids. rewrite skipn_all. cbn [map flat_map]. rewrite <- (app_nil_r cs), (zip_refl max) by assumption. reflexivity. }
  reflexivity.
Qed.
Print Assumptions C99_one_text_one_operation.
Definition quiet_page (t : option str) (extra : list element) : element :=
  node 0 (bs "div") ([leaf 1 (bs "p"); node 2 (bs "div") [leaf 3 (bs "p"); Element 4 (bs "p") [] [] [] t None]; node 5 (bs "ul") [leaf 6 (bs "li")]] ++ extra).
Example C99_example : let a := quiet_page (Some (bs "x")) [] in let b := quiet_page (Some (bs "y")) [] in let b' := quiet_page None [leaf 7 (bs "p")] in
  proper (usize_max 64) a /\ proper (usize_max 64) b' /\ unkeyed a /\ unkeyed b' /\ NoDup (ids a) /\ NoDup (ids b') /\
  at_path [1; 1] a = Some (Element 4 (bs "p") [] [] [] (Some (bs "x")) None) /\ put_at [1; 1] (Element 4 (bs "p") [] [] [] (Some (bs "y")) None) a b /\
  diff a (Some b) = Some [Op (bs "4") (SetText (bs "y"))] /\
  at_path [2] a = at_path [2] b' /\ at_path [2] a <> None /\ exists os, diff a (Some b') = Some os /\ length os = 2.
Proof.
  cbv zeta. split; [proper_tac|]. split; [proper_tac|]. split; [apply unkeyedb_ok; reflexivity|]. split; [apply unkeyedb_ok; reflexivity|].
  split. { repeat constructor; cbn; intuition discriminate. } split. { repeat constructor; cbn; intuition discriminate. }
  split; [reflexivity|]. split.
  { apply (put_below 1 [1] _ [leaf 1 (bs "p")] _ _ [node 5 (bs "ul") [leaf 6 (bs "li")]]); [reflexivity|].
    apply (put_below 1 [] _ [leaf 3 (bs "p")] _ _ []); [reflexivity|]. apply put_here. }
  split; [vm_compute; reflexivity|]. split; [reflexivity|]. split; [discriminate|]. eexists. split; vm_compute; reflexivity.
Qed.

(** ** C100: one instruction changes one node, in the way [effect] says; an instruction that has no such effect panics. *)
Theorem C100_one_instruction : forall max o e e', NoDup (ids e) ->
  (apply max [o] e = Some e' <-> exists i, number max (op_id o) i /\ edit_at (effect max i (op_instr o)) e e').
Proof.
  intros max o e e' Hn. rewrite <- (apply_op_exactly max o e e' Hn). cbn [apply]. destruct (apply_op max o e); reflexivity.
Qed.
Print Assumptions C100_one_instruction.
Theorem C100_instruction_panics : forall max o e, NoDup (ids e) ->
  (apply max [o] e = None <-> forall i e', number max (op_id o) i -> ~ edit_at (effect max i (op_instr o)) e e').
Proof.
  intros max o e Hn. split.
  - intros H i e' Hi He. assert (apply max [o] e = Some e') as E by (apply C100_one_instruction; eauto). congruence.
  - intros H. destruct (apply max [o] e) as [e'|] eqn:E; [|reflexivity]. apply C100_one_instruction in E as (i & Hi & He); [|exact Hn]. exfalso. eapply H; eauto.
Qed.
Print Assumptions C100_instruction_panics.
(** Changesets compose: applying one and then another is applying both. *)
Theorem C100_in_order : forall max os1 os2 e e', apply max (os1 ++ os2) e = Some e' <-> exists m, apply max os1 e = Some m /\ apply max os2 m = Some e'.
Proof.
  intros max os1 os2 e e'. rewrite apply_app. destruct (apply max os1 e) as [m|]; split; [eauto|intros (m' & [= <-] & H); exact H|discriminate|intros (m' & H & _); discriminate].
Qed.
Print Assumptions C100_in_order.
Example C100_example : let e := quiet_page None [] in NoDup (ids e) /\
  edit_at (effect (usize_max 64) 2 (InsertAfter (bs "3"))) e
    (node 0 (bs "div") [leaf 1 (bs "p"); node 2 (bs "div") [leaf 3 (bs "p"); leaf 3 []; leaf 4 (bs "p")]; node 5 (bs "ul") [leaf 6 (bs "li")]]) /\
  apply (usize_max 64) [Op (bs "2") (InsertAfter (bs "6"))] e = None /\ apply (usize_max 64) [Op (bs "0") DeleteEl] e = None.
Proof.
  cbv zeta. split. { repeat constructor; cbn; intuition discriminate. } split; [|split; vm_compute; reflexivity].
  apply (ea_below _ 0 (bs "div") [] [] [leaf 1 (bs "p")] _ _ [node 5 (bs "ul") [leaf 6 (bs "li")]] None None). apply ea_here.
  apply (ef_insert_after (usize_max 64) 2 (bs "3") 3 (bs "div") [] [] [] (leaf 3 (bs "p")) [leaf 4 (bs "p")] None None); vm_compute; reflexivity.
Qed.
