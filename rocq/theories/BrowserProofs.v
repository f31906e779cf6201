(** The browser, instruction by instruction. *)
From Coq Require Import Lia.
From Verif Require Import Base HMap Num Utf8 Json DomModel DomSpec DomProofs DomProofs2 DomProofs3 DomProofs4 ClientModel ClientSpec BrowserSpec ClientProofs ClientProofs2.

Lemma doc_ids_nids n : doc_ids n = nids n.
Proof.
  reflexivity.
Qed.
Lemma doc_ids_all ns : flat_map doc_ids ns = flat_map nids ns.
Proof. induction ns as [|n ns IH]; [reflexivity|]. cbn [flat_map]. now rewrite doc_ids_nids, IH. Qed.

Lemma node_edit_impl (R R' : node -> list node -> Prop) : (forall x r, R x r -> R' x r) -> forall d d', node_edit R d d' -> node_edit R' d d'.
Proof. intros H d d' E. induction E; [apply ne_here; auto|now apply ne_below]. Qed.
Lemma node_edit_cons (R : node -> list node -> Prop) c d d' : node_edit R d d' -> node_edit R (c :: d) (c :: d').
Proof. intros H. inversion H; subst; rewrite ?app_comm_cons; [now apply ne_here|now apply ne_below]. Qed.
Lemma by_id_edit i f doc doc' : by_id i f doc = Some doc' -> node_edit (fun x r => has_id i x = true /\ f x = Some r) doc doc'.
Proof.
  unfold by_id. assert (forall n, (forall r, edit_node i f n = Some (Some r) -> node_edit (fun x r => has_id i x = true /\ f x = Some r) [n] r)) as G.
  { induction n as [s|t a l kids IH] using node_ind2; intros r.
    - cbn. discriminate.
    - rewrite edit_node_eq. destruct (has_id i (Elem t a l kids)) eqn:E.
      + intros [= H]. rewrite <- (app_nil_r r). apply (ne_here _ [] _ _ []). auto.
      + destruct (edit_nodes i f kids) as [[k'|]|] eqn:Ek; try discriminate. intros [= <-]. apply (ne_below _ [] t a l kids k' []). clear E.
        revert k' Ek. induction IH as [|c kids Hc _ IHk]; intros k'; cbn [edit_nodes]; [discriminate|].
        destruct (edit_node i f c) as [[x|]|]; [|discriminate|].
        * intros [= <-]. specialize (Hc x eq_refl). inversion Hc as [l1 ? ? l2 HR Hl|l1 ? ? ? ? ? l2 HE Hl]; subst.
          -- destruct l1 as [|? [|]]; injection Hl as -> ?; subst; try discriminate. rewrite app_nil_r. cbn [app]. now apply (ne_here _ []).
          -- destruct l1 as [|? [|]]; injection Hl as <- ?; subst; try discriminate. now apply (ne_below _ []).
        * destruct (edit_nodes i f kids) as [[x|]|]; try discriminate. intros [= <-]. apply node_edit_cons. now apply IHk. }
  destruct (edit_nodes i f doc) as [[x|]|] eqn:E; try discriminate. intros [= <-]. revert x E. induction doc as [|c doc IHk]; intros k'; cbn [edit_nodes]; [discriminate|].
  destruct (edit_node i f c) as [[x|]|] eqn:Ec; [|discriminate|].
  - intros [= <-]. pose proof (G c x Ec) as Hc. inversion Hc as [l1 ? ? l2 HR Hl|l1 ? ? ? ? ? l2 HE Hl]; subst.
    + destruct l1 as [|? [|]]; injection Hl as -> ?; subst; try discriminate. rewrite app_nil_r. cbn [app]. now apply (ne_here _ []).
    + destruct l1 as [|? [|]]; injection Hl as <- ?; subst; try discriminate. now apply (ne_below _ []).
  - destruct (edit_nodes i f doc) as [[x|]|]; try discriminate. intros [= <-]. apply node_edit_cons. now apply IHk.
Qed.
Lemma edit_has_id (R : node -> list node -> Prop) i : (forall x r, R x r -> has_id i x = true) -> forall d d', node_edit R d d' -> In i (flat_map nids d).
Proof.
  intros H d d' E. induction E as [l1 n r l2 HR|l1 t a l k k' l2 E IH]; rewrite flat_map_app, in_app_iff; right; cbn [flat_map]; apply in_or_app; left.
  - apply has_id_in. eauto.
  - cbn [nids]. apply in_or_app. now right.
Qed.
Lemma edit_by_id i f doc doc' : NoDup (flat_map nids doc) -> node_edit (fun x r => has_id i x = true /\ f x = Some r) doc doc' -> by_id i f doc = Some doc'.
Proof.
  intros Hn E. induction E as [l1 n r l2 [H1 H2]|l1 t a l k k' l2 E IH].
  - rewrite flat_map_app in Hn. cbn [flat_map] in Hn. apply nodup_app_iff in Hn as (_ & _ & D). unfold by_id. rewrite edit_nodes_skip.
    + cbn [edit_nodes]. destruct n as [s|t a l kids]; [discriminate|]. rewrite edit_node_eq, H1, H2. reflexivity.
    + intros Hi. apply (D i Hi). apply in_or_app. left. now apply has_id_in.
  - rewrite flat_map_app in Hn. cbn [flat_map] in Hn. apply nodup_app_iff in Hn as (_ & N2 & D). apply nodup_app_iff in N2 as (N2 & _ & _). cbn [nids] in N2.
    pose proof (edit_has_id _ i (fun x r H => proj1 H) _ _ E) as Hi. apply nodup_app_iff in N2 as (_ & N3 & D3). specialize (IH N3).
    unfold by_id in IH |- *. destruct (edit_nodes i f k) as [[x|]|] eqn:Ek; try discriminate. injection IH as ->.
    rewrite edit_nodes_skip.
    + cbn [edit_nodes]. rewrite edit_node_eq. unfold has_id. cbn [node_id]. destruct (get attr_id a) as [j|].
      * destruct (str_eqb i j) eqn:Ej; [apply str_eqb_eq in Ej; subst; exfalso; apply (D3 j); [now left|exact Hi]|]. rewrite Ek. reflexivity.
      * rewrite Ek. reflexivity.
    + intros Hj. apply (D i Hj). apply in_or_app. left. cbn [nids]. apply in_or_app. now right.
Qed.
Lemma by_id_iff i f (R : node -> list node -> Prop) doc doc' : NoDup (flat_map nids doc) ->
  (forall x r, (has_id i x = true /\ f x = Some r) <-> R x r) -> (by_id i f doc = Some doc' <-> node_edit R doc doc').
Proof.
  intros Hn HR. split.
  - intros H. apply by_id_edit in H. revert H. apply node_edit_impl. intros x r. apply HR.
  - intros H. apply edit_by_id; [exact Hn|]. revert H. apply node_edit_impl. intros x r. apply HR.
Qed.
Lemma has_id_get i t a l k : has_id i (Elem t a l k) = true <-> get attr_id a = Some i.
Proof.
  unfold has_id. cbn [node_id]. destruct (get attr_id a) as [j|]; [|split; discriminate]. rewrite str_eqb_eq. split; congruence.
Qed.
Lemma by_elem i (g : str -> hmap str -> list (str * str) -> list node -> option (list node)) doc doc' : NoDup (flat_map nids doc) ->
  (by_id i (fun n => match n with Elem t a l k => g t a l k | Text _ => None end) doc = Some doc' <->
   node_edit (fun x r => exists t a l k, x = Elem t a l k /\ get attr_id a = Some i /\ g t a l k = Some r) doc doc').
Proof.
  intros Hn. apply by_id_iff; [exact Hn|]. intros [s|t a l k] r.
  - split; [intros [H _]; discriminate|intros (? & ? & ? & ? & H & _); discriminate].
  - rewrite has_id_get. split; [intros [H1 H2]; exists t, a, l, k; auto|]. intros (t' & a' & l' & k' & [= <- <- <- <-] & H). exact H.
Qed.
Lemma node_edit_iff (R R' : node -> list node -> Prop) : (forall x r, R x r <-> R' x r) -> forall d d', node_edit R d d' <-> node_edit R' d d'.
Proof. intros H d d'. split; apply node_edit_impl; intros; now apply H. Qed.
Lemma no_edit (R : node -> list node -> Prop) d d' : (forall x r, ~ R x r) -> ~ node_edit R d d'.
Proof. intros H E. induction E as [l1 n r l2 HR|l1 t a l k k' l2 E IH]; [exact (H _ _ HR)|exact IH]. Qed.

Ltac fits_shape := apply node_edit_iff; intros x r; split; intros (t & a & l & k & H1 & H2 & H3); exists t, a, l, k; repeat split; auto; congruence.
Ltac one_way := let H := fresh in intros H; inversion H; subst; first [assumption|contradiction].
Lemma exec_exactly reparse o doc doc' : NoDup (flat_map doc_ids doc) -> head_plain (op_instr o) ->
  (js_exec reparse (js_op o) doc = Some doc' <-> browser_effect reparse (op_id o) (op_instr o) doc doc').
Proof.
  intros Hn Hp. rewrite doc_ids_all in Hn. destruct o as [i ins]. cbn [op_id op_instr] in *. destruct ins as [s|s|s|key v|key|s|v|m|m [p|]| | |n ev|el h|]; cbn [head_plain] in Hp.
  - split; [intros [= <-]; now constructor|intros H; inversion H; subst; reflexivity].
  - split; [intros [= <-]; now constructor|intros H; inversion H; subst; reflexivity].
  - split; [intros [= <-]; now constructor|intros H; inversion H; subst; reflexivity].
  - transitivity (by_id i (fun n => match n with Elem t a l kids => if valid_name key then Some [Elem t (insert (to_lower key) (cut v) a) l kids] else None | Text _ => None end) doc = Some doc').
    { transitivity (by_id i (fun n => match n, part 0 (key ++ plus :: v) with
        | Elem t a l kids, Some k0 =>
            if valid_name k0
            then Some [Elem t (insert (to_lower k0) (match part 1 (key ++ plus :: v) with Some v => v | None => bs "undefined" end) a) l kids]
            else None
        | _, _ => None end) doc = Some doc'); [reflexivity|]. rewrite part0, part1_cut by exact Hp. reflexivity. }
    rewrite by_elem by exact Hn. destruct (valid_name key) eqn:Ek.
    + split; [intros H; apply be_set_attr; [exact Ek|]; revert H|intros H; inversion H as [| |? ? ? ? ? HE| | | | | | | |]; subst; [revert HE|contradiction]];
      apply node_edit_impl; intros x r (t & a & l & k & H1 & H2 & H3); exists t, a, l, k; repeat split; auto; congruence.
    + split; [|intros H; inversion H; subst; [congruence|contradiction]]. intros H. exfalso. revert H. apply no_edit. intros x r (t & a & l & k & _ & _ & H). discriminate.
  - transitivity (by_id i (fun n => match n with Elem t a l kids => Some [Elem t (remove (to_lower key) a) l kids] | Text _ => None end) doc = Some doc'); [reflexivity|].
    rewrite by_elem by exact Hn. split; [intros H; apply be_remove_attr; revert H|intros H; inversion H as [| | |? ? ? HE| | | | | | |]; subst; [revert HE|contradiction]];
      apply node_edit_impl; intros x r (t & a & l & k & H1 & H2 & H3); exists t, a, l, k; repeat split; auto; congruence.
  - transitivity (by_id i (fun n => match n with Elem t a l kids => Some [Elem t (insert attr_id s a) l kids] | Text _ => None end) doc = Some doc'); [reflexivity|].
    rewrite by_elem by exact Hn. split; [intros H; apply be_set_id; revert H|intros H; inversion H as [| | | | | | | | |? ? ? HE|]; subst; [revert HE|contradiction]];
      apply node_edit_impl; intros x r (t & a & l & k & H1 & H2 & H3); exists t, a, l, k; repeat split; auto; congruence.
  - transitivity (by_id i (fun n => match n with Elem t a l kids => Some [Elem t a l (text_nodes v)] | Text _ => None end) doc = Some doc'); [reflexivity|].
    rewrite by_elem by exact Hn. split; [intros H; apply be_set_text; revert H|intros H; inversion H as [| | | | |? ? ? HE| | | | |]; subst; [revert HE|contradiction]];
      apply node_edit_impl; intros x r (t & a & l & k & H1 & H2 & H3); exists t, a, l, k; unfold text_nodes in *; repeat split; auto; congruence.
  - transitivity (by_id i (fun n => match n with Elem t a l kids => if valid_name m then Some [Elem (to_lower m) a [] (reparse t (to_lower m) kids)] else None | Text _ => None end) doc = Some doc'); [reflexivity|].
    rewrite by_elem by exact Hn. destruct (valid_name m) eqn:Ek.
    + split; [intros H; apply be_set_tag; [exact Ek|]; revert H|intros H; inversion H as [| | | |? ? ? ? HE| | | | | |]; subst; [revert HE|contradiction]];
      apply node_edit_impl; intros x r (t & a & l & k & H1 & H2 & H3); exists t, a, l, k; repeat split; auto; congruence.
    + split; [|intros H; inversion H; subst; [congruence|contradiction]]. intros H. exfalso. revert H. apply no_edit. intros x r (t & a & l & k & _ & _ & H). discriminate.
  - destruct Hp as (P1 & P2 & P3).
    transitivity ((if valid_name m then by_id p (fun n => match n with Elem t a l kids => Some [Elem t a l (kids ++ [new_tag m i])] | Text _ => None end) doc else None) = Some doc').
    { transitivity (match part 0 (m ++ plus :: p) with
        | None => None
        | Some name =>
            match make_el name i with
            | None => None
            | Some el =>
                match part 1 (m ++ plus :: p) with
                | None | Some [] => Some (doc ++ [el])
                | Some q => by_id q (fun n => match n with
                    | Elem t a l kids => Some [Elem t a l (kids ++ [el])]
                    | Text _ => None end) doc
                end
            end
        end = Some doc'); [reflexivity|]. rewrite part0 by exact P1. unfold make_el. destruct (valid_name m); [|reflexivity].
      rewrite part1 by assumption. destruct p; [congruence|reflexivity]. }
    destruct (valid_name m) eqn:Em.
    + rewrite by_elem by exact Hn. split; [intros H; apply be_create_below; [exact Em|]; revert H|intros H; inversion H as [|? ? ? ? ? HE| | | | | | | | |]; subst; [revert HE|contradiction]];
      apply node_edit_impl; intros x r (t & a & l & k & H1 & H2 & H3); exists t, a, l, k; repeat split; auto; congruence.
    + split; [discriminate|]. intros H. inversion H; subst; [congruence|contradiction].
  - destruct Hp as [P1 _].
    transitivity ((if valid_name m then Some (doc ++ [new_tag m i]) else None) = Some doc').
    { transitivity (match part 0 (m ++ plus :: []) with
        | None => None
        | Some name =>
            match make_el name i with
            | None => None
            | Some el =>
                match part 1 (m ++ plus :: []) with
                | None | Some [] => Some (doc ++ [el])
                | Some q => by_id q (fun n => match n with
                    | Elem t a l kids => Some [Elem t a l (kids ++ [el])]
                    | Text _ => None end) doc
                end
            end
        end = Some doc'); [reflexivity|]. rewrite part0 by exact P1. unfold make_el. destruct (valid_name m); [|reflexivity].
      rewrite part1; [reflexivity|exact P1|intros []]. }
    destruct (valid_name m) eqn:Em.
    + split; [intros [= <-]; now constructor|]. intros H. inversion H; subst; [reflexivity|contradiction].
    + split; [discriminate|]. intros H. inversion H; subst; [congruence|contradiction].
  - split; [intros [= <-]; now constructor|intros H; inversion H; subst; reflexivity].
  - transitivity (by_id i (fun n => match n with Elem t a l kids => Some [Elem t a [] (map clone kids)] | Text _ => None end) doc = Some doc').
    { change (js_exec reparse (js_op (Op i RemoveListeners)) doc) with (by_id i (fun n => Some [clone n]) doc).
      split; intros H; apply (edit_by_id _ _ _ _ Hn); apply by_id_edit in H; revert H; apply node_edit_impl; intros [s|t a l k] r [H1 H2]; try discriminate; split; auto. }
    rewrite by_elem by exact Hn. split; [intros H; apply be_remove_listeners; revert H|intros H; inversion H as [| | | | | | |? ? HE| | |]; subst; [revert HE|contradiction]];
      apply node_edit_impl; intros x r (t & a & l & k & H1 & H2 & H3); exists t, a, l, k; repeat split; auto; congruence.
  - transitivity (by_id i (fun x => match x with Elem t a l kids => Some [Elem t a (l ++ [(cut ev, n)]) kids] | Text _ => None end) doc = Some doc').
    { rewrite (exec_attach reparse i n ev doc Hp). reflexivity. }
    rewrite by_elem by exact Hn. split; [intros H; apply be_attach; revert H|intros H; inversion H as [| | | | | |? ? ? ? HE| | | |]; subst; [revert HE|contradiction]];
      apply node_edit_impl; intros x r (t & a & l & k & H1 & H2 & H3); exists t, a, l, k; repeat split; auto; congruence.
  - split; [intros [= <-]; now constructor|intros H; inversion H; subst; reflexivity].
  - transitivity (by_id i (fun n => match n with Elem t a l kids => Some [] | Text _ => None end) doc = Some doc').
    { change (js_exec reparse (js_op (Op i DeleteEl)) doc) with (by_id i (fun n => Some []) doc).
      split; intros H; apply (edit_by_id _ _ _ _ Hn); apply by_id_edit in H; revert H; apply node_edit_impl; intros [s|t a l k] r [H1 H2]; try discriminate; split; auto. }
    rewrite by_elem by exact Hn. split; [intros H; apply be_delete; revert H|intros H; inversion H as [| | | | | | | |? ? HE| |]; subst; [revert HE|contradiction]];
      apply node_edit_impl; intros x r (t & a & l & k & H1 & H2 & H3); exists t, a, l, k; repeat split; auto; congruence.
Qed.

(** Several instructions in one message. *)
Lemma run_app reparse js1 js2 doc : js_run reparse (js1 ++ js2) doc =
  match js_run reparse js1 doc with (d, true) => js_run reparse js2 d | (d, false) => (d, false) end.
Proof.
  revert doc. induction js1 as [|j js1 IH]; intros doc; cbn [app js_run]; [reflexivity|]. destruct (js_exec reparse j doc) as [d|]; [apply IH|reflexivity].
Qed.

(** What arrives. *)
Lemma cut_full s : cut s = s -> plus_free s.
Proof.
  induction s as [|x s IH]; cbn [cut]; [intros _ []|]. destruct (byte_eqb x plus) eqn:E; [discriminate|]. intros [= H] [Hx|Hx].
  - subst x. rewrite byte_eqb_refl in E. discriminate.
  - now apply IH.
Qed.
Lemma part0_cut s : part 0 s = Some (cut s).
Proof. unfold part. destruct (split_hd s) as (l & ->). reflexivity. Qed.
Lemma cut_app a b : cut (a ++ plus :: b) = cut a.
Proof. induction a as [|x a IH]; cbn [app cut]; [now rewrite byte_eqb_refl|]. destruct (byte_eqb x plus); [reflexivity|]. now rewrite IH. Qed.
Lemma glued_iff a b : (match part 0 (a ++ plus :: b), part 1 (a ++ plus :: b) with Some x, Some y => [x; y] | Some x, None => [x] | _, _ => [] end) = [a; b] <-> plus_free a /\ plus_free b.
Proof.
  split.
  - rewrite part0_cut, cut_app. destruct (part 1 (a ++ plus :: b)) as [y|] eqn:E1; [|discriminate]. intros [= H1 H2]. subst y. pose proof (cut_full a H1) as Pa. split; [exact Pa|].
    rewrite part1_cut in E1 by exact Pa. injection E1 as E1. now apply cut_full.
  - intros [Pa Pb]. now rewrite part0, part1 by assumption.
Qed.
Lemma received_iff o : received (js_op o) = arguments (op_instr o) <-> wire_safe (op_instr o).
Proof.
  split; [|apply received_ok]. destruct o as [i ins]. unfold received, js_op. cbn [op_instr js_payload js_ty op_id].
  destruct ins as [ | | |k v| | | | |n p| | |n e|e h| ]; cbn [wire_safe]; try (intros _; exact Logic.I); cbn [op_payload op_ty arguments]; change (existsb _ _) with true; cbv iota; intros H.
  - now apply glued_iff.
  - apply glued_iff in H as [H1 H2]. split; [exact H1|]. destruct p; [exact H2|exact Logic.I].
  - now apply glued_iff.
  - now apply glued_iff.
Qed.

(** Where [displays] and [shows] agree. *)
Lemma both_plain n e : displays n e -> shows n e -> every (fun e => Forall (fun kv => get (fst kv) (el_attrs e) = Some (snd kv) -> fst kv <> attr_id -> plus_free (snd kv)) (el_attrs e)) e.
Proof.
  revert n. induction e as [i nm a l cs t k IH] using element_ind2. intros n D H. inversion D as [? ? ? ? ? ? ? m kids D1 D2 D3]; subst.
  inversion H as [? ? ? ? ? ? ? m' kids' H1 H2 H3]; subst.
  match goal with E : _ ++ kids' = _ ++ kids |- _ => apply app_inv_head in E; subst kids' end. constructor.
  - cbn [el_attrs]. apply Forall_forall. intros [q v] _ G Hq. cbn [fst snd] in *. apply cut_full. specialize (D2 q Hq). rewrite (H2 q Hq), G in D2. cbn in D2. congruence.
  - cbn [el_children]. clear -IH D3 H3. revert kids D3 H3. induction IH as [|c cs Hc _ IHcs]; intros kids D3 H3; [constructor|].
    inversion D3; subst. inversion H3; subst. constructor; eauto.
Qed.
