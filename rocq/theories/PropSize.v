(** * C117: how many instructions a change needs *)
From Verif Require Import Base HMap Num DomModel DomSpec DomProofs DomProofs2 DomProofs3 DomLocal.
From Coq Require Import Lia.

(** ** Specification *)

(** How much there is to a tree: one for every element, every attribute, every listener and every text. *)
Fixpoint weight (e : element) : nat :=
  match e with
  | Element _ _ attrs ls cs t _ =>
      1 + length attrs + length ls + (match t with Some _ => 1 | None => 0 end)
      + list_sum (map weight cs)
  end.
(** The keys that occur among these siblings. *)
Definition keys_among (cs : list element) : list str :=
  flat_map (fun c => match el_key c with Some k => [k] | None => [] end) cs.
(** No two siblings share a key, anywhere in the tree. *)
Definition distinct_keys (e : element) : Prop := every (fun x => NoDup (keys_among (el_children x))) e.

(** ** Proofs *)

Definition total (cs : list element) : nat := list_sum (map weight cs).
Lemma total_app a b : total (a ++ b) = total a + total b.
Proof. unfold total. now rewrite map_app, list_sum_app. Qed.
Lemma weight_pos e : 1 <= weight e.
Proof. destruct e. cbn. lia. Qed.
Lemma total_length cs : length cs <= total cs.
Proof. induction cs as [|c cs IH]; [cbn; lia|]. assert (total (c :: cs) = weight c + total cs) as -> by reflexivity. cbn [length]. pose proof (weight_pos c). lia. Qed.

Lemma create_size : forall e p, length (create_from_scratch e p) = weight e.
Proof.
  induction e as [i n a l cs t k IH] using element_ind2. intros p. rewrite create_eq. cbn [length weight].
  rewrite app_length, map_length, !app_length, !map_length.
  assert (length (flat_map (fun c => create_from_scratch c (Some (dec i))) cs) = list_sum (map weight cs)) as ->.
  { induction IH as [|c cs Hc _ IHl]; [reflexivity|]. cbn [flat_map map list_sum]. rewrite app_length, Hc, IHl. reflexivity. }
  destruct t; cbn [length]; lia.
Qed.

Lemma created_size ds p : length (flat_map (fun d => create_from_scratch d p) ds) = total ds.
Proof. induction ds as [|d ds IH]; [reflexivity|]. cbn [flat_map]. now rewrite app_length, create_size, IH. Qed.

Lemma flat_one {A B} (f : A -> list B) l : (forall x, length (f x) <= 1) -> length (flat_map f l) <= length l.
Proof. intros H. induction l as [|x l IH]; [cbn; lia|]. cbn [flat_map length]. rewrite app_length. specialize (H x). lia. Qed.

Lemma cat_length l os : cat_ops l = Some os -> length os = list_sum (map (fun o => match o with Some x => length x | None => 0 end) l).
Proof.
  revert os. induction l as [|[o|] l IH]; intros os; cbn [cat_ops]; [intros [= <-]; reflexivity| |discriminate].
  destruct (cat_ops l) as [o'|] eqn:E; [|discriminate]. intros [= <-]. cbn [map list_sum fold_right]. rewrite app_length. f_equal. now apply IH.
Qed.

Definition own_weight (e : element) : nat :=
  1 + length (el_attrs e) + length (el_listeners e) + match el_text e with Some _ => 1 | None => 0 end.
Lemma weight_own e : weight e = own_weight e + total (el_children e).
Proof. destruct e. reflexivity. Qed.

Lemma own_size a b : length (diff_own a b) + length (diff_id a b) <= own_weight a + 2 * own_weight b.
Proof.
  unfold diff_own. rewrite !app_length.
  assert (length (diff_name a b) <= 1) as H1 by (unfold diff_name; destruct (str_eqb _ _); cbn; lia).
  assert (length (diff_id a b) <= 1) as H2 by (unfold diff_id; destruct (N.eqb _ _); cbn; lia).
  assert (length (diff_attributes a b) <= length (el_attrs a) + length (el_attrs b)) as H3.
  { unfold diff_attributes. destruct (hm_eqb _ _); [cbn; lia|]. rewrite app_length.
    assert (length (keys (el_attrs a)) = length (el_attrs a)) as <- by apply map_length.
    apply Nat.add_le_mono; apply flat_one; [intros k; destruct (contains_key _ _); cbn; lia|].
    intros kv. destruct (get _ _) as [m|]; [destruct (str_eqb _ _)|]; cbn; lia. }
  assert (length (diff_listeners a b) <= 1 + length (el_listeners b)) as H4.
  { unfold diff_listeners. destruct (listeners_eqb _ _); [cbn; lia|]. unfold generate_listeners. cbn [length]. rewrite map_length. lia. }
  assert (length (diff_text a b) <= match el_text a with Some _ => 1 | None => 0 end + match el_text b with Some _ => 1 | None => 0 end) as H5.
  { unfold diff_text. destruct (el_text a) as [x|], (el_text b) as [y|]; cbn; try destruct (str_eqb x y); cbn; lia. }
  unfold own_weight. lia.
Qed.

Definition olen (o : option (list op)) : nat := match o with Some x => length x | None => 0 end.

Lemma zip_size : forall ds cs,
  Forall (fun d => forall c, olen (diff_to d c) <= weight c + 2 * weight d) ds ->
  list_sum (map olen (zip_ops ds cs)) <= total (firstn (length ds) cs) + 2 * total (firstn (length cs) ds).
Proof.
  intros ds cs H. revert cs. induction H as [|d ds Hd _ IH]; intros [|c cs]; cbn [zip_ops map list_sum fold_right firstn length]; try (cbn; lia).
  unfold total in *. cbn [map list_sum fold_right]. specialize (IH cs). specialize (Hd c). fold (list_sum (map olen (zip_ops ds cs))).
  fold (list_sum (map weight (firstn (length ds) cs))) (list_sum (map weight (firstn (length cs) ds))). lia.
Qed.

(** What the old children that have one of these keys weigh. *)
Definition among (ks : list str) (cs : list element) : nat :=
  list_sum (map (fun c => match el_key c with Some k => if existsb (str_eqb k) ks then weight c else 0 | None => 0 end) cs).

Lemma among_cons k ks cs c : ~ In k ks -> locate k cs = Some c -> weight c + among ks cs <= among (k :: ks) cs.
Proof.
  intros Hn. unfold locate, among. induction cs as [|x cs IH]; cbn [find map list_sum fold_right]; [discriminate|].
  assert (forall l, fold_right Nat.add 0 (map (fun c0 => match el_key c0 with Some k0 => if existsb (str_eqb k0) ks then weight c0 else 0 | None => 0 end) l)
    <= fold_right Nat.add 0 (map (fun c0 => match el_key c0 with Some k0 => if existsb (str_eqb k0) (k :: ks) then weight c0 else 0 | None => 0 end) l)) as Mono.
  { induction l as [|y l IHl]; [reflexivity|]. cbn [map fold_right]. apply Nat.add_le_mono; [|exact IHl].
    destruct (el_key y); [|lia]. cbn [existsb]. destruct (str_eqb _ k); cbn [orb]; destruct (existsb _ ks); lia. }
  unfold key_is at 1. destruct (el_key x) as [k'|] eqn:Ek.
  - destruct (str_eqb k' k) eqn:Es.
    + intros [= <-]. apply str_eqb_eq in Es as ->. cbn [existsb]. assert (str_eqb k k = true) as -> by now apply str_eqb_eq. cbn [orb].
      assert (existsb (str_eqb k) ks = false) as ->.
      { apply Bool.not_true_is_false. intros H. apply existsb_exists in H as (z & Hz & E). apply str_eqb_eq in E as ->. auto. }
      specialize (Mono cs). cbn [existsb] in Mono. lia.
    + intros H. specialize (IH H). unfold list_sum in IH. cbn [existsb] in IH |- *. rewrite Es. cbn [orb]. lia.
  - intros H. specialize (IH H). unfold list_sum in IH. lia.
Qed.
Lemma among_more k ks cs : among ks cs <= among (k :: ks) cs.
Proof.
  unfold among, list_sum. induction cs as [|y l IHl]; [reflexivity|]. cbn [map fold_right]. apply Nat.add_le_mono; [|exact IHl].
  destruct (el_key y); [|lia]. cbn [existsb]. destruct (str_eqb _ k); cbn [orb]; destruct (existsb _ ks); lia.
Qed.

Lemma pair_size mine : forall ds, NoDup (keys_among ds) ->
  Forall (fun d => forall c, olen (diff_to d c) <= weight c + 2 * weight d) ds -> forall n,
  list_sum (map olen (pair_ops mine ds)) + length (unpaired mine n ds) <= among (keys_among ds) mine + 2 * total ds.
Proof.
  intros ds Hn H. induction H as [|d ds Hd _ IH]; intros n; [cbn; lia|].
  cbn [pair_ops unpaired keys_among flat_map] in *. fold (keys_among ds) in *.
  assert (total (d :: ds) = weight d + total ds) as -> by reflexivity. pose proof (weight_pos d).
  destruct (el_key d) as [k|] eqn:Ek; cbn [app] in *.
  - inversion Hn as [|? ? Hk Hn']; subst. specialize (IH Hn' (S n)).
    destruct (locate k mine) as [c|] eqn:El.
    + pose proof (among_cons k _ _ _ Hk El). specialize (Hd c). cbn [map list_sum fold_right]. fold (list_sum (map olen (pair_ops mine ds))). lia.
    + pose proof (among_more k (keys_among ds) mine). cbn [length]. lia.
  - specialize (IH Hn (S n)). cbn [length]. lia.
Qed.

Lemma locate_none_key k ds : existsb (str_eqb k) (keys_among ds) = true -> locate k ds <> None.
Proof.
  intros H. apply existsb_exists in H as (z & Hz & E). apply str_eqb_eq in E as ->. unfold keys_among in Hz. apply in_flat_map in Hz as (d & Hd & Hz).
  unfold locate. intros Hf. pose proof (List.find_none _ _ Hf d Hd) as Hx. unfold key_is in Hx. destruct (el_key d) as [k'|]; [|destruct Hz].
  destruct Hz as [->|[]]. assert (str_eqb z z = true) by now apply str_eqb_eq. congruence.
Qed.
Lemma deletes_size mine ds : among (keys_among ds) mine + length (keyed_deletes mine ds) <= total mine.
Proof.
  unfold keyed_deletes, among, total, list_sum. induction mine as [|c mine IH]; [cbn; lia|]. cbn [map fold_right flat_map]. rewrite app_length.
  pose proof (weight_pos c). destruct (el_key c) as [k|]; [|cbn [length]; lia].
  destruct (existsb (str_eqb k) (keys_among ds)) eqn:Ex.
  - pose proof (locate_none_key _ _ Ex). destruct (locate k ds); [cbn [length]; lia|congruence].
  - destruct (locate k ds); cbn [length]; lia.
Qed.

Lemma inserts_size ds n un os : cat_ops (map (keyed_insert ds n) un) = Some os -> length os <= length un.
Proof.
  intros E. apply cat_length in E. rewrite E, map_map. clear E. induction un as [|u un IH]; [reflexivity|]. cbn [map list_sum fold_right length].
  change (S (length un)) with (1 + length un). apply Nat.add_le_mono; [|exact IH].
  unfold keyed_insert. destruct (nth_error ds u); [|lia]. destruct (Nat.eqb u 0); [destruct (nth_error ds 1); cbn; lia|].
  destruct (Nat.eqb u n); [cbn; lia|]. destruct (nth_error ds (u - 1)); cbn; lia.
Qed.

Lemma update_size : forall b, distinct_keys b -> forall a, olen (diff_to b a) <= weight a + 2 * weight b.
Proof.
  induction b as [bi bn ba bl bc bt bk IH] using element_ind2. intros Hd a.
  set (b := Element bi bn ba bl bc bt bk) in *.
  assert (Forall (fun d => forall c, olen (diff_to d c) <= weight c + 2 * weight d) bc) as IH'.
  { pose proof (every_children _ _ Hd) as Hc. change (el_children b) with bc in Hc. rewrite Forall_forall in *. intros d Hin. apply IH; [exact Hin|]. now apply Hc. }
  pose proof (every_root _ _ Hd) as Hn. cbn beta in Hn. change (el_children b) with bc in Hn.
  destruct (diff_to b a) as [os|] eqn:E; [|cbn; lia]. cbn [olen]. rewrite diff_to_eq in E. apply cat_length in E. rewrite E. clear E os.
  cbn [map list_sum fold_right]. pose proof (own_size a b) as Ho. rewrite (weight_own a), (weight_own b). change (el_children b) with bc.
  assert (olen (if all_keyed a && all_keyed b then keyed_kids (el_children a) bc else plain_kids (el_id a) (el_children a) bc)
          <= total (el_children a) + 2 * total bc) as Hk.
  { destruct (all_keyed a && all_keyed b).
    - unfold keyed_kids. destruct (cat_ops _) as [os|] eqn:E; [|cbn; lia]. cbn [olen].
      pose proof (cat_length _ _ E) as ->. cbn [cat_ops] in E. cbn [map list_sum fold_right].
      destruct (cat_ops (pair_ops _ _)) as [o1|] eqn:E1; [|discriminate].
      destruct (cat_ops (map _ _)) as [o2|] eqn:E2; [|discriminate].
      apply cat_length in E1. apply inserts_size in E2. pose proof (pair_size (el_children a) bc Hn IH' 0). pose proof (deletes_size (el_children a) bc).
      unfold olen in *. lia.
    - unfold plain_kids. destruct (cat_ops _) as [os|] eqn:E; [|cbn; lia]. cbn [olen].
      pose proof (cat_length _ _ E) as ->. cbn [cat_ops] in E. cbn [map list_sum fold_right].
      destruct (cat_ops (zip_ops _ _)) as [o1|] eqn:E1; [|discriminate].
      apply cat_length in E1. pose proof (zip_size bc (el_children a) IH'). rewrite map_length, created_size.
      pose proof (total_length (skipn (length bc) (el_children a))).
      pose proof (total_app (firstn (length bc) (el_children a)) (skipn (length bc) (el_children a))) as Ta.
      pose proof (total_app (firstn (length (el_children a)) bc) (skipn (length (el_children a)) bc)) as Tb.
      rewrite firstn_skipn in Ta, Tb. unfold olen in *. lia. }
  unfold olen in Hk. lia.
Qed.

(** ** C117 *)

(** Drawing a page for the first time takes exactly one instruction per element, attribute, listener and text. *)
Theorem C117_first_paint_size : forall e os, diff e None = Some os -> length os = weight e.
Proof. intros e os [= <-]. apply create_size. Qed.

(** An update never takes more instructions than there is to the two trees (the new one counted twice), provided no two
    siblings of the new tree share a key. *)
Theorem C117_update_size_partial : forall a b os, distinct_keys b -> diff a (Some b) = Some os ->
  length os <= weight a + 2 * weight b.
Proof. intros a b os Hd E. pose proof (update_size b Hd a) as H. cbn [diff] in E. now rewrite E in H. Qed.

Definition flood_child (n : nat) : element :=
  Element 1 (bs "li") (map (fun i => (dec (N.of_nat i), [])) (seq 0 n)) [] [] None (Some (bs "k")).
Definition flood_old (n : nat) : element := Element 0 (bs "ul") [] [] [flood_child n] None None.
Definition flood_new (n : nat) : element :=
  Element 0 (bs "ul") [] [] (map (fun i => Element (N.of_nat i) (bs "li") [] [] [] None (Some (bs "k"))) (seq 1 n)) None None.

Lemma flood_weights n : weight (flood_old n) = n + 2 /\ weight (flood_new n) = n + 1.
Proof.
  split.
  - cbn [flood_old flood_child weight map list_sum fold_right length]. rewrite map_length, seq_length. lia.
  - rewrite weight_own. cbn [flood_new el_children]. change (own_weight (flood_new n)) with 1.
    assert (forall l, total (map (fun i => Element (N.of_nat i) (bs "li") [] [] [] None (Some (bs "k"))) l) = length l) as H.
    { induction l as [|x l IH]; [reflexivity|]. cbn [length]. rewrite <- IH. reflexivity. }
    rewrite H, seq_length. lia.
Qed.

Lemma flood_pair n i : exists os, diff_to (Element (N.of_nat i) (bs "li") [] [] [] None (Some (bs "k"))) (flood_child n) = Some os /\ n <= length os.
Proof.
  rewrite diff_to_eq. cbn [el_children flood_child all_keyed forallb andb keyed_kids pair_ops unpaired map cat_ops keyed_deletes flat_map app length].
  eexists. split; [reflexivity|]. rewrite app_length. enough (n <= length (diff_own (flood_child n) (Element (N.of_nat i) (bs "li") [] [] [] None (Some (bs "k"))))) by (unfold flood_child in *; lia).
  unfold diff_own. rewrite !app_length. enough (n <= length (diff_attributes (flood_child n) (Element (N.of_nat i) (bs "li") [] [] [] None (Some (bs "k"))))) by lia.
  unfold diff_attributes. cbn [el_attrs flood_child]. destruct n as [|n]; [lia|].
  replace (hm_eqb (map (fun i0 => (dec (N.of_nat i0), [])) (seq 0 (S n))) []) with false by reflexivity.
  rewrite app_length. unfold keys. rewrite map_map. cbn [fst].
  assert (forall l, length (flat_map (fun k => if contains_key k (@nil (str * str)) then [] else [Op (id_str (flood_child (S n))) (RemoveAttribute k)]) l) = length l) as H.
  { induction l as [|x l IH]; [reflexivity|]. cbn [flat_map]. rewrite app_length, IH. reflexivity. }
  unfold flood_child in H. rewrite H, map_length, seq_length. lia.
Qed.

Lemma flood_size n : 1 <= n -> exists os, diff (flood_old n) (Some (flood_new n)) = Some os /\ n * n <= length os.
Proof.
  intros Hn. cbn [diff]. rewrite diff_to_eq. cbn [el_children flood_old flood_new].
  assert (forall l, forallb is_keyed (map (fun i => Element (N.of_nat i) (bs "li") [] [] [] None (Some (bs "k"))) l) = true) as Hk.
  { induction l as [|x l IH]; [reflexivity|exact IH]. }
  unfold all_keyed, flood_old, flood_new. cbn [el_children forallb]. rewrite Hk. change (is_keyed (flood_child n)) with true. cbn [andb]. unfold keyed_kids.
  assert (forall l m, unpaired [flood_child n] m (map (fun i => Element (N.of_nat i) (bs "li") [] [] [] None (Some (bs "k"))) l) = []) as Hu.
  { induction l as [|x l IH]; intros m; [reflexivity|]. cbn [map unpaired el_key]. exact (IH (S m)). }
  rewrite Hu. cbn [map cat_ops].
  assert (forall l, exists os, cat_ops (pair_ops [flood_child n] (map (fun i => Element (N.of_nat i) (bs "li") [] [] [] None (Some (bs "k"))) l)) = Some os /\ length l * n <= length os) as G.
  { induction l as [|x l (os & E & Hl)]; [exists []; split; [reflexivity|cbn; lia]|].
    destruct (flood_pair n x) as (o1 & E1 & H1). exists (o1 ++ os). split; [|rewrite app_length; cbn [length]; lia].
    cbn [map pair_ops el_key]. change (locate (bs "k") [flood_child n]) with (Some (flood_child n)). cbn [cat_ops]. rewrite E1, E. reflexivity. }
  destruct (G (seq 1 n)) as (os & E & Hl).
  rewrite E. cbn [cat_ops]. eexists. split; [reflexivity|]. rewrite !app_length. rewrite seq_length in Hl. lia.
Qed.

(** With siblings that share a key an update can be far larger than the two pages together: no constant multiple of
    their sizes is enough, even with all ids distinct. *)
Theorem C117_update_size_refuted : forall c, exists a b os,
  NoDup (ids a) /\ NoDup (ids b) /\ diff a (Some b) = Some os /\ length os > c * (weight a + weight b).
Proof.
  intros c. set (n := 2 * c + 4). destruct (flood_size n) as (os & E & Hl); [lia|]. exists (flood_old n), (flood_new n), os.
  destruct (flood_weights n) as [-> ->].
  split; [|split; [|split; [exact E|nia]]].
  - cbn. constructor; [intros [H|[]]; discriminate|]. constructor; [intros []|constructor].
  - cbn [ids flood_new].
    assert (forall l, flat_map ids (map (fun i => Element (N.of_nat i) (bs "li") [] [] [] None (Some (bs "k"))) l) = map N.of_nat l) as ->.
    { induction l as [|x l IH]; [reflexivity|]. cbn [map flat_map ids app]. now rewrite IH. }
    constructor.
    + intros H. apply in_map_iff in H as (x & Hx & Hin). apply in_seq in Hin. lia.
    + apply FinFun.Injective_map_NoDup; [intros x y H; lia|apply seq_NoDup].
Qed.

(** A case: a keyed list in which one entry is edited, one deleted and one added. *)
Definition size_item (i : N) (k : str) (t : str) : element :=
  Element i (bs "li") [(bs "class", bs "item")] [Listener (bs "done") (bs "click")] [] (Some t) (Some k).
Definition size_old : element := Element 0 (bs "ul") [] [] [size_item 1 (bs "a") (bs "tea"); size_item 2 (bs "b") (bs "milk")] None None.
Definition size_new : element := Element 0 (bs "ul") [] [] [size_item 1 (bs "a") (bs "coffee"); size_item 3 (bs "c") (bs "sugar")] None None.
Example C117_example : distinct_keys size_new /\ exists os, diff size_old (Some size_new) = Some os /\ length os = 3 /\ weight size_old = 9 /\ weight size_new = 9.
Proof.
  split.
  - repeat constructor; cbn; try (intros [H|[]]; discriminate); try (intros []).
  - vm_compute. eexists. repeat split.
Qed.

Print Assumptions C117_first_paint_size.
Print Assumptions C117_update_size_partial.
Print Assumptions C117_update_size_refuted.
