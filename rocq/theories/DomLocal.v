(** When diffing panics, and how local changesets are. *)
From Coq Require Import Lia.
From Verif Require Import Base HMap Num DomModel DomSpec DomProofs DomProofs2 DomProofs3 DomProofs4 DomKeyed.

(* ------------------------------------------------------------------ *)
(** ** Panics of diff, exactly *)

(** Every child has a key. *)
Definition keyed_kids_of (e : element) : Prop := Forall (fun c => el_key c <> None) (el_children e).
(** The first child with this key. *)
Definition first_with (k : str) (cs : list element) (c : element) : Prop :=
  exists l1 l2, cs = l1 ++ c :: l2 /\ el_key c = Some k /\ Forall (fun x => el_key x <> Some k) l1.
(** Walking both trees together (by key where all children have keys, else by position) one comes to a node whose only
    new child has a key that no old child has. *)
Inductive meets_new_single : element -> element -> Prop :=
| mn_here a b c k : keyed_kids_of a -> el_children b = [c] -> el_key c = Some k -> ~ In (Some k) (map el_key (el_children a)) ->
    meets_new_single a b
| mn_key a b k c d : keyed_kids_of a -> keyed_kids_of b -> In d (el_children b) -> el_key d = Some k -> first_with k (el_children a) c ->
    meets_new_single c d -> meets_new_single a b
| mn_pos a b n c d : ~ (keyed_kids_of a /\ keyed_kids_of b) -> nth_error (el_children a) n = Some c -> nth_error (el_children b) n = Some d ->
    meets_new_single c d -> meets_new_single a b.

Lemma keyed_iff e : all_keyed e = true <-> keyed_kids_of e.
Proof.
  unfold all_keyed, keyed_kids_of. rewrite forallb_forall, Forall_forall. split; intros H x Hx; specialize (H x Hx); unfold is_keyed in *; destruct (el_key x); congruence.
Qed.
Lemma locate_first k cs c : locate k cs = Some c <-> first_with k cs c.
Proof.
  unfold locate. induction cs as [|x cs IH]; cbn [find].
  - split; [discriminate|]. intros (l1 & l2 & E & _). destruct l1; discriminate.
  - destruct (key_is k x) eqn:E.
    + assert (el_key x = Some k) as Ex by (unfold key_is in E; destruct (el_key x); [apply str_eqb_eq in E; congruence|discriminate]).
      split.
      * intros [= <-]. exists [], cs. auto.
      * intros (l1 & l2 & El & Hc & F). destruct l1 as [|y l1]; injection El as -> ->; [reflexivity|]. inversion F; subst. contradiction.
    + assert (el_key x <> Some k) as Ex by (intros H; unfold key_is in E; rewrite H, str_eqb_refl in E; discriminate).
      rewrite IH. split.
      * intros (l1 & l2 & -> & Hc & F). exists (x :: l1), l2. repeat split; auto.
      * intros (l1 & l2 & El & Hc & F). destruct l1 as [|y l1]; injection El as -> ->; [contradiction|]. inversion F; subst. exists l1, l2. auto.
Qed.
Lemma cat_none l : cat_ops l = None <-> In None l.
Proof.
  induction l as [|[x|] l IH]; cbn [cat_ops In]; [split; [discriminate|tauto]| |split; auto].
  destruct (cat_ops l) as [o|]; split; try discriminate; [intros [H|H]; [discriminate|]; apply IH in H; discriminate|intros _; right; now apply IH|auto].
Qed.
Lemma pair_none mine ds : In None (pair_ops mine ds) <-> exists d k c, In d ds /\ el_key d = Some k /\ locate k mine = Some c /\ diff_to d c = None.
Proof.
  induction ds as [|d ds IH]; cbn [pair_ops].
  - split; [intros []|intros (? & ? & ? & [] & _)].
  - assert ((exists d0 k c, In d0 ds /\ el_key d0 = Some k /\ locate k mine = Some c /\ diff_to d0 c = None) ->
            exists d0 k c, In d0 (d :: ds) /\ el_key d0 = Some k /\ locate k mine = Some c /\ diff_to d0 c = None) as Up.
    { intros (d0 & k & c & H & R). exists d0, k, c. split; [now right|exact R]. }
    destruct (el_key d) as [k|] eqn:Ek.
    + destruct (locate k mine) as [c|] eqn:El.
      * cbn [In]. rewrite IH. split.
        -- intros [H|H]; [exists d, k, c; auto using in_eq|auto].
        -- intros (d0 & k0 & c0 & [<-|H] & R); [left|right; exists d0, k0, c0; auto]. destruct R as (E1 & E2 & E3). congruence.
      * rewrite IH. split; [exact Up|]. intros (d0 & k0 & c0 & [<-|H] & R); [destruct R as (E1 & E2 & _); congruence|exists d0, k0, c0; auto].
    + rewrite IH. split; [exact Up|]. intros (d0 & k0 & c0 & [<-|H] & R); [destruct R as (E1 & _); congruence|exists d0, k0, c0; auto].
Qed.
Lemma zip_none ds cs : In None (zip_ops ds cs) <-> exists n c d, nth_error cs n = Some c /\ nth_error ds n = Some d /\ diff_to d c = None.
Proof.
  revert cs. induction ds as [|d ds IH]; intros [|c cs]; cbn [zip_ops].
  - split; [intros []|]. intros ([|n] & ? & ? & H & H' & _); discriminate.
  - split; [intros []|]. intros ([|n] & ? & ? & _ & H & _); discriminate.
  - split; [intros []|]. intros ([|n] & ? & ? & H & _); discriminate.
  - cbn [In]. rewrite IH. split.
    + intros [H|(n & R)]; [exists 0, c, d; auto|exists (S n); exact R].
    + intros ([|n] & c0 & d0 & R); [left|right; exists n, c0, d0; exact R]. destruct R as (H1 & H2 & H3). cbn in H1, H2. congruence.
Qed.
Lemma insert_none bc len n : n < length bc -> (keyed_insert bc len n = None <-> n = 0 /\ length bc = 1).
Proof.
  intros Hn. unfold keyed_insert. destruct (nth_error bc n) as [e|] eqn:E; [|apply nth_error_None in E; lia].
  destruct (Nat.eqb_spec n 0) as [->|Hn0].
  - destruct (nth_error bc 1) eqn:E1.
    + assert (nth_error bc 1 <> None) as H by congruence. apply nth_error_Some in H. split; [discriminate|lia].
    + apply nth_error_None in E1. split; [intros _; lia|reflexivity].
  - destruct (Nat.eqb n len); [split; [discriminate|lia]|].
    destruct (nth_error bc (n - 1)) eqn:E1; [split; [discriminate|lia]|]. apply nth_error_None in E1. lia.
Qed.

Lemma diff_panics b : forall a, diff_to b a = None <-> meets_new_single a b.
Proof.
  induction b as [bi bn ba bl bc bt bk IH] using element_ind2. intros a. set (b := Element bi bn ba bl bc bt bk).
  rewrite diff_to_eq, cat_none. cbn [In].
  assert (forall X, (Some (diff_own a b) = None \/ X = None \/ Some (diff_id a b) = None \/ False) <-> X = None :> option (list op)) as E
    by (intros X; split; [intros [H|[H|[H|[]]]]; congruence|auto]).
  rewrite E. clear E. rewrite Forall_forall in IH. change (el_children b) with bc.
  destruct (all_keyed a && all_keyed b) eqn:Ek.
  - apply andb_true_iff in Ek as [Ka Kb]. pose proof (proj1 (keyed_iff a) Ka) as Ka'. pose proof (proj1 (keyed_iff b) Kb) as Kb'.
    unfold keyed_kids. rewrite cat_none. cbn [In]. rewrite !cat_none, pair_none. split.
    + intros [(d & k & c & H1 & H2 & H3 & H4)|[H|[H|[]]]]; [| |discriminate].
      * apply (mn_key a b k c d); auto; [now apply locate_first|]. now apply IH.
      * apply in_map_iff in H as (n & H & Hn). pose proof (unpaired_lt _ _ _ _ Hn) as Hl. apply insert_none in H as [-> H]; [|lia].
        destruct bc as [|c [|c2 bc]]; cbn in H; try lia.
        assert (el_key c <> None) as Hc by (inversion Kb'; assumption). destruct (el_key c) as [k|] eqn:Ec; [|congruence].
        apply (mn_here a b c k); auto. cbn [unpaired] in Hn. rewrite Ec in Hn. destruct (locate k (el_children a)) eqn:El; [destruct Hn|]. now apply locate_none.
    + intros H. inversion H as [? ? c k H1 H2 H3 H4|? ? k c d H1 H2 H3 H4 H5 H6|? ? n c d H1 H2 H3 H4]; subst.
      * right. left. change (el_children b) with bc in H2. subst bc. cbn [unpaired]. rewrite H3. apply locate_none in H4. rewrite H4. now left.
      * left. exists d, k, c. split; [exact H3|]. split; [exact H4|]. split; [now apply locate_first|]. now apply (IH d H3).
      * exfalso. apply H1. auto.
  - assert (~ (keyed_kids_of a /\ keyed_kids_of b)) as Hn.
    { intros [H1 H2]. apply keyed_iff in H1, H2. rewrite H1, H2 in Ek. discriminate. }
    unfold plain_kids. rewrite cat_none. cbn [In]. rewrite cat_none, zip_none. split.
    + intros [H|[(n & c & d & H1 & H2 & H3)|[H|[]]]]; [discriminate| |discriminate].
      apply (mn_pos a b n c d); auto. apply (IH d); [|exact H3]. now apply nth_error_In in H2.
    + intros H. inversion H as [? ? c k H1 H2 H3 H4|? ? k c d H1 H2 H3 H4 H5 H6|? ? n c d H1 H2 H3 H4]; subst.
      * exfalso. apply Hn. split; [exact H1|]. unfold keyed_kids_of. rewrite H2. constructor; [congruence|constructor].
      * exfalso. apply Hn. auto.
      * right. left. exists n, c, d. split; [exact H2|]. split; [exact H3|]. apply (IH d); [|exact H4]. now apply nth_error_In in H3.
Qed.

(* ------------------------------------------------------------------ *)
(** ** Locality *)

(** The node reached by a list of child positions, and the tree with that node replaced. *)
Fixpoint at_path (p : list nat) (e : element) : option element :=
  match p with
  | [] => Some e
  | n :: p' => match nth_error (el_children e) n with Some c => at_path p' c | None => None end
  end.
Inductive put_at : list nat -> element -> element -> element -> Prop :=
| put_here d a : put_at [] d a d
| put_below n p d l1 c c' l2 i nm at_ ls t k : length l1 = n -> put_at p d c c' ->
    put_at (n :: p) d (Element i nm at_ ls (l1 ++ c :: l2) t k) (Element i nm at_ ls (l1 ++ c' :: l2) t k).

Lemma own_refl i n a l cs cs' t k : hm_wf a -> diff_own (Element i n a l cs t k) (Element i n a l cs' t k) = [].
Proof.
  intros W. unfold diff_own, diff_name, diff_attributes, diff_text, diff_listeners. cbn [el_name el_attrs el_text el_listeners].
  rewrite str_eqb_refl. assert (hm_eqb a a = true) as -> by (apply hm_eqb_equiv; auto using hm_equiv_refl).
  assert (text_eqb t t = true) as -> by now apply text_eqb_eq. assert (listeners_eqb l l = true) as -> by now apply listeners_eqb_eq. reflexivity.
Qed.
Lemma zip_refl max l ds cs : Forall (proper max) l -> Forall unkeyed l -> cat_ops (zip_ops (l ++ ds) (l ++ cs)) = cat_ops (zip_ops ds cs).
Proof.
  induction l as [|c l IH]; intros P U; [reflexivity|]. inversion P; inversion U; subst. cbn [app zip_ops].
  assert (diff c (Some c) = Some []) as E by (apply (unchanged_iff c max c); auto; apply view_refl). cbn [diff] in E.
  cbn [cat_ops]. rewrite E, IH by assumption. now destruct (cat_ops (zip_ops ds cs)).
Qed.
Lemma diff_local max p d : forall a b c, put_at p d a b -> at_path p a = Some c -> proper max a -> unkeyed a -> unkeyed b -> diff a (Some b) = diff c (Some d).
Proof.
  intros a b c H. revert c. induction H as [d a|n p d l1 x x' l2 i nm at_ ls t k Hn H IH]; intros c Hc Pa Ua Ub.
  - cbn in Hc. now injection Hc as ->.
  - cbn [at_path el_children] in Hc. rewrite nth_error_app2, <- Hn, Nat.sub_diag in Hc by lia. cbn [nth_error] in Hc.
    pose proof (every_root _ _ Pa) as [_ W]. cbn [el_attrs] in W.
    pose proof (every_children _ _ Pa) as Pc. pose proof (every_children _ _ Ua) as Uc. pose proof (every_children _ _ Ub) as Ubc. cbn [el_children] in *.
    apply Forall_app in Pc as [P1 P2], Uc as [U1 U2], Ubc as [_ U3]. inversion P2 as [|? ? Px P3]; inversion U2 as [|? ? Ux U4]; inversion U3 as [|? ? Ux' _]; subst.
    cbn [diff]. rewrite diff_to_eq, (own_refl i nm at_ ls) by assumption. cbn [el_children el_id].
    assert (all_keyed (Element i nm at_ ls (l1 ++ x :: l2) t k) = false) as ->.
    { unfold all_keyed. cbn [el_children]. rewrite forallb_app. cbn [forallb]. unfold is_keyed at 2. rewrite (every_root _ _ Ux). now rewrite andb_false_r. }
    cbn [andb]. unfold plain_kids, diff_id. cbn [el_id]. rewrite N.eqb_refl.
    assert (length (l1 ++ x' :: l2) = length (l1 ++ x :: l2)) as El by (rewrite !app_length; reflexivity).
    rewrite El, skipn_all. rewrite <- El, skipn_all. cbn [map flat_map].
    rewrite (zip_refl max) by assumption. cbn [zip_ops].
    specialize (IH c Hc Px Ux Ux'). cbn [diff] in IH. cbn [cat_ops]. rewrite IH.
    assert (cat_ops (zip_ops l2 l2) = Some []) as ->.
    { rewrite <- (app_nil_r l2). rewrite (zip_refl max) by assumption. reflexivity. }
    destruct (diff_to d c) as [os|]; [|reflexivity]. cbn [app]. now rewrite !app_nil_r.
Qed.

(** The nodes an instruction names: the one it is addressed to and the parent of a node it creates. *)
Definition names (o : op) (i : N) : Prop := op_id o = dec i \/ exists n, op_instr o = CreateTag n (Some (dec i)).

Lemma dec_inj i j : dec i = dec j -> i = j.
Proof. intros H. rewrite <- (dec_value i), H. apply dec_value. Qed.
Lemma own_names a b o i : In o (diff_own a b) -> names o i -> i = el_id a \/ i = el_id b.
Proof.
  unfold diff_own. rewrite !in_app_iff. unfold names. intros Ho Hn.
  assert (forall e ins, o = Op (id_str e) ins -> (forall n p, ins <> CreateTag n p) -> i = el_id e) as G.
  { intros e ins -> Hc. destruct Hn as [Hn|(n & Hn)]; cbn in Hn; [unfold id_str in Hn; symmetry; now apply dec_inj|exfalso; exact (Hc _ _ Hn)]. }
  destruct Ho as [H|[H|[H|H]]].
  - unfold diff_name in H. destruct (str_eqb _ _); [destruct H|]. destruct H as [H|[]]. right. eapply G; [symmetry; exact H|discriminate].
  - unfold diff_attributes in H. destruct (hm_eqb _ _); [destruct H|]. left. apply in_app_or in H as [H|H]; apply in_flat_map in H as (kv & _ & H).
    + destruct (contains_key _ _); [destruct H|]. destruct H as [H|[]]. eapply G; [symmetry; exact H|discriminate].
    + destruct (get _ _); [destruct (str_eqb _ _); [destruct H|]|]; (destruct H as [H|[]]; eapply G; [symmetry; exact H|discriminate]).
  - unfold diff_text in H. destruct (text_eqb _ _); [destruct H|]. left. destruct (el_text b); (destruct H as [H|[]]; eapply G; [symmetry; exact H|discriminate]).
  - unfold diff_listeners in H. destruct (listeners_eqb _ _); [destruct H|]. destruct H as [H|H]; [left; eapply G; [symmetry; exact H|discriminate]|].
    unfold generate_listeners in H. apply in_map_iff in H as (l & H & _). right. eapply G; [symmetry; exact H|discriminate].
Qed.
Lemma create_names d : forall p o i, In o (create_from_scratch d p) -> names o i -> In i (ids d) \/ p = Some (dec i).
Proof.
  induction d as [di n a l cs t k IH] using element_ind2. intros p o i. rewrite create_eq. cbn [ids]. unfold names.
  intros [<-|H] Hn.
  - destruct Hn as [Hn|(m & Hn)]; cbn in Hn; [left; left; now apply dec_inj|right; injection Hn as _ ->; reflexivity].
  - apply in_app_or in H as [H|H].
    + apply in_map_iff in H as (ins & <- & H). cbn [op_id op_instr] in Hn. left. left. destruct Hn as [Hn|(m & Hn)]; [now apply dec_inj|]. exfalso.
      subst ins. rewrite !in_app_iff in H. destruct H as [H|[H|H]].
      * apply in_map_iff in H as (kv & H & _). discriminate.
      * apply in_map_iff in H as (kv & H & _). discriminate.
      * destruct t; [destruct H as [H|[]]; discriminate|destruct H].
    + left. apply in_flat_map in H as (c & Hc & H). rewrite Forall_forall in IH. destruct (IH c Hc _ o i H Hn) as [Hi|Hi].
      * right. apply in_flat_map. eauto.
      * left. injection Hi as Hi. now apply dec_inj.
Qed.
Lemma zip_in os ds cs : In (Some os) (zip_ops ds cs) -> exists n c d, nth_error cs n = Some c /\ nth_error ds n = Some d /\ diff_to d c = Some os.
Proof.
  revert cs. induction ds as [|d ds IH]; intros [|c cs]; cbn [zip_ops]; try (intros []). 
  - exists 0, c, d. auto.
  - destruct (IH cs H) as (n & c0 & d0 & R). exists (S n), c0, d0. exact R.
Qed.
Lemma nth_skip {A} (l : list A) n x : In x (skipn n l) -> exists m, n <= m /\ nth_error l m = Some x.
Proof.
  revert n. induction l as [|y l IH]; intros [|n]; cbn [skipn]; try (intros []).
  - exists 0. subst. auto.
  - apply In_nth_error in H as (m & H). exists (S m). split; [lia|exact H].
  - intros H. destruct (IH n H) as (m & Hm & E). exists (S m). split; [lia|exact E].
Qed.
(** Everything a changeset names is a node of the old or of the new tree. *)
Lemma diff_names b : forall a os o i, unkeyed a -> unkeyed b -> diff_to b a = Some os -> In o os -> names o i -> In i (ids a) \/ In i (ids b).
Proof.
  induction b as [bi bn ba bl bc bt bk IH] using element_ind2. intros a os o i Ua Ub E Ho Hn. set (b := Element bi bn ba bl bc bt bk) in *. rewrite diff_to_eq in E.
  pose proof (every_children _ _ Ua) as Uc. pose proof (every_children _ _ Ub) as Ubc. change (el_children b) with bc in *.
  apply (cat_in _ _ _ E) in Ho as (os' & Hl & Ho). cbn [In] in Hl. destruct Hl as [Hl|[Hl|[Hl|[]]]].
  - injection Hl as <-. destruct (own_names _ _ _ _ Ho Hn) as [-> | ->]; [left|right]; apply in_ids_root.
  - destruct (all_keyed a && all_keyed b) eqn:Ek.
    + apply andb_true_iff in Ek as [Ka Kb]. apply unkeyed_kids in Ka; [|exact Ua]. apply unkeyed_kids in Kb; [|exact Ub]. change (el_children b) with bc in Kb.
      rewrite Ka, Kb in Hl. cbn in Hl. injection Hl as <-. destruct Ho.
    + unfold plain_kids in Hl. apply (cat_in _ _ _ Hl) in Ho as (os2 & Hl2 & Ho). cbn [In] in Hl2. destruct Hl2 as [H|[H|[H|[]]]].
      * injection H as <-. apply in_map_iff in Ho as (c & <- & Hc). left. apply in_ids_kids. unfold names in Hn. cbn in Hn.
        destruct Hn as [Hn|(m & Hn)]; [|discriminate]. apply dec_inj in Hn as <-. unfold ids_of. apply in_flat_map. exists c. split; [|apply in_ids_root].
        destruct (nth_skip _ _ _ Hc) as (q & _ & Hq). now apply nth_error_In in Hq.
      * apply (cat_in _ _ _ H) in Ho as (os3 & H3 & Ho). apply zip_in in H3 as (m & c & d & Hc & Hd & E3). rewrite Forall_forall in IH, Uc, Ubc.
        apply nth_error_In in Hc, Hd. destruct (IH d Hd c os3 o i (Uc c Hc) (Ubc d Hd) E3 Ho Hn) as [Hi|Hi].
        -- left. apply in_ids_kids. unfold ids_of. apply in_flat_map. eauto.
        -- right. unfold b. cbn [ids]. right. apply in_flat_map. eauto.
      * injection H as <-. apply in_flat_map in Ho as (d & Hd & Ho). destruct (create_names d _ o i Ho Hn) as [Hi|Hi].
        -- right. unfold b. cbn [ids]. right. apply in_flat_map. exists d. split; [|exact Hi]. destruct (nth_skip _ _ _ Hd) as (q & _ & Hq). now apply nth_error_In in Hq.
        -- left. injection Hi as Hi. apply dec_inj in Hi as <-. apply in_ids_root.
  - injection Hl as <-. unfold diff_id in Ho. destruct (N.eqb _ _); [destruct Ho|]. destruct Ho as [<-|[]]. left. unfold names in Hn. cbn in Hn.
    destruct Hn as [Hn|(m & Hn)]; [|discriminate]. apply dec_inj in Hn as <-. apply in_ids_root.
Qed.
Lemma nodup_nth cs n m x y i : NoDup (ids_of cs) -> nth_error cs n = Some x -> nth_error cs m = Some y -> In i (ids x) -> In i (ids y) -> n = m.
Proof.
  revert n m. induction cs as [|c cs IH]; intros [|n] [|m] Hnd Hn Hm Hx Hy; cbn in Hn, Hm; try discriminate; auto;
    rewrite ids_of_cons in Hnd; apply nodup_app_iff in Hnd as (N1 & N2 & N3).
  - injection Hn as ->. exfalso. apply (N3 i Hx). unfold ids_of. apply in_flat_map. exists y. split; [now apply nth_error_In in Hm|exact Hy].
  - injection Hm as ->. exfalso. apply (N3 i Hy). unfold ids_of. apply in_flat_map. exists x. split; [now apply nth_error_In in Hn|exact Hx].
  - f_equal. eapply IH; eauto.
Qed.
Lemma at_path_ids p : forall e c i, at_path p e = Some c -> In i (ids c) -> In i (ids e).
Proof.
  induction p as [|n p IH]; intros e c i H Hi; cbn [at_path] in H; [injection H as ->; exact Hi|].
  destruct (nth_error (el_children e) n) as [x|] eqn:E; [|discriminate]. apply in_ids_kids. unfold ids_of. apply in_flat_map. exists x.
  split; [now apply nth_error_In in E|eauto].
Qed.

Lemma untouched max p : forall a b c d os o i, proper max a -> proper max b -> NoDup (ids a) -> NoDup (ids b) -> unkeyed a -> unkeyed b ->
  at_path p a = Some c -> at_path p b = Some d -> view c d -> diff_to b a = Some os -> In o os -> names o i -> ~ In i (ids c).
Proof.
  induction p as [|n p IH]; intros a b c d os o i Pa Pb Na Nb Ua Ub Hc Hd V E Ho Hn Hi; cbn [at_path] in Hc, Hd.
  - injection Hc as ->. injection Hd as ->. apply (unchanged_iff d max c Pa Pb Ua Ub) in V. cbn [diff] in V. rewrite V in E. injection E as <-. destruct Ho.
  - destruct (nth_error (el_children a) n) as [x|] eqn:Ex; [|discriminate]. destruct (nth_error (el_children b) n) as [y|] eqn:Ey; [|discriminate].
    pose proof (at_path_ids _ _ _ _ Hc Hi) as Hix. assert (In i (ids d)) as Hi' by (now rewrite <- (view_ids _ _ V)).
    pose proof (at_path_ids _ _ _ _ Hd Hi') as Hiy.
    assert (NoDup (ids_of (el_children a)) /\ i <> el_id a) as [Na2 Nra].
    { destruct a as [ai an aa al ac at0 ak]. cbn [ids el_children el_id] in *. inversion Na as [|? ? N1 N2]; subst. split; [exact N2|]. intros ->. apply N1.
      apply in_flat_map. exists x. split; [now apply nth_error_In in Ex|exact Hix]. }
    assert (NoDup (ids_of (el_children b)) /\ i <> el_id b) as [Nb2 Nrb].
    { destruct b as [bi bn ba bl bc bt bk]. cbn [ids el_children el_id] in *. inversion Nb as [|? ? N1 N2]; subst. split; [exact N2|]. intros ->. apply N1.
      apply in_flat_map. exists y. split; [now apply nth_error_In in Ey|exact Hiy]. }
    pose proof (every_children _ _ Pa) as Pc. pose proof (every_children _ _ Pb) as Pd. pose proof (every_children _ _ Ua) as Uc. pose proof (every_children _ _ Ub) as Ud.
    rewrite Forall_forall in Pc, Pd, Uc, Ud. pose proof (nth_error_In _ _ Ex) as Hx. pose proof (nth_error_In _ _ Ey) as Hy.
    rewrite diff_to_eq in E. apply (cat_in _ _ _ E) in Ho as (os' & Hl & Ho). cbn [In] in Hl. destruct Hl as [Hl|[Hl|[Hl|[]]]].
    + injection Hl as <-. destruct (own_names _ _ _ _ Ho Hn); contradiction.
    + destruct (all_keyed a && all_keyed b) eqn:Ek.
      { apply andb_true_iff in Ek as [Ka _]. apply unkeyed_kids in Ka; [|exact Ua]. rewrite Ka in Hx. destruct Hx. }
      unfold plain_kids in Hl. apply (cat_in _ _ _ Hl) in Ho as (os2 & Hl2 & Ho). cbn [In] in Hl2. destruct Hl2 as [H|[H|[H|[]]]].
      * injection H as <-. apply in_map_iff in Ho as (q & <- & Hq). apply nth_skip in Hq as (m & Hm & Hq). unfold names in Hn. cbn in Hn.
        destruct Hn as [Hn|(z & Hn)]; [|discriminate]. apply dec_inj in Hn as <-.
        assert (n = m) as -> by (apply (nodup_nth _ n m x q _ Na2 Ex Hq Hix); apply in_ids_root).
        assert (nth_error (el_children b) m <> None) as Hs by congruence. apply nth_error_Some in Hs. lia.
      * apply (cat_in _ _ _ H) in Ho as (os3 & H3 & Ho). apply zip_in in H3 as (m & c0 & d0 & Hc0 & Hd0 & E3).
        pose proof (nth_error_In _ _ Hc0) as Ic0. pose proof (nth_error_In _ _ Hd0) as Id0.
        assert (m = n) as ->.
        { destruct (diff_names d0 c0 os3 o i (Uc c0 Ic0) (Ud d0 Id0) E3 Ho Hn) as [Hj|Hj].
          - symmetry. exact (nodup_nth _ n m x c0 i Na2 Ex Hc0 Hix Hj).
          - symmetry. exact (nodup_nth _ n m y d0 i Nb2 Ey Hd0 Hiy Hj). }
        rewrite Ex in Hc0. injection Hc0 as <-. rewrite Ey in Hd0. injection Hd0 as <-.
        assert (forall l z, NoDup (ids_of l) -> In z l -> NoDup (ids z)) as Sub.
        { induction l as [|w l IHl]; intros z Hnd Hz; [destruct Hz|]; destruct Hz as [-> |Hz]; rewrite ids_of_cons in Hnd; apply nodup_app_iff in Hnd as (M1 & M2 & _); auto. }
        exact (IH x y c d os3 o i (Pc x Hx) (Pd y Hy) (Sub _ x Na2 Hx) (Sub _ y Nb2 Hy) (Uc x Hx) (Ud y Hy) Hc Hd V E3 Ho Hn Hi).
      * injection H as <-. apply in_flat_map in Ho as (q & Hq & Ho). destruct (create_names q _ o i Ho Hn) as [Hj|Hj].
        -- apply nth_skip in Hq as (m & Hm & Hq). assert (n = m) as -> by (apply (nodup_nth _ n m y q i Nb2 Ey Hq Hiy Hj)).
           assert (nth_error (el_children a) m <> None) as Hs by congruence. apply nth_error_Some in Hs. lia.
        -- injection Hj as Hj. apply dec_inj in Hj as <-. contradiction.
    + injection Hl as <-. unfold diff_id in Ho. destruct (N.eqb _ _); [destruct Ho|]. destruct Ho as [<-|[]]. unfold names in Hn. cbn in Hn.
      destruct Hn as [Hn|(m & Hn)]; [|discriminate]. apply dec_inj in Hn as <-. contradiction.
Qed.
