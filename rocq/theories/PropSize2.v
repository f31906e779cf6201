(** * C117 in bytes: how long the texts are that are sent to the browser *)
From Verif Require Import Base HMap Num Json DomModel DomSpec DomProofs DomProofs2 DomProofs3 DomLocal ClientModel PropSize.
From Coq Require Import Lia.

(** ** Specification *)

(** All the text in a tree: tag names, attributes, listeners, texts (in bytes). *)
Fixpoint letters (e : element) : nat :=
  match e with
  | Element _ n attrs ls cs t _ =>
      length n + list_sum (map (fun kv : str * str => length (fst kv) + length (snd kv)) attrs)
      + list_sum (map (fun l => length (l_name l) + length (l_event l)) ls)
      + (match t with Some v => length v | None => 0 end) + list_sum (map letters cs)
  end.
(** Ids are below 2^64 (the ids of a page are machine words). *)
Definition small_ids (e : element) : Prop := every (fun x => (el_id x < 2 ^ 64)%N) e.

(** ** Proofs *)

(** *** One instruction *)
Lemma esc_length b : length (esc_byte b) <= 6.
Proof. destruct b; vm_compute; lia. Qed.
Lemma escs_length s : length (flat_map esc_byte s) <= 6 * length s.
Proof. induction s as [|b s IH]; [cbn; lia|]. cbn [flat_map length]. rewrite app_length. pose proof (esc_length b). lia. Qed.
Definition esc (s : str) : str := flat_map esc_byte s.
Lemma esc_app s t : length (esc (s ++ t)) = length (esc s) + length (esc t).
Proof. unfold esc. now rewrite flat_map_app, app_length. Qed.
Lemma esc_digits s : Forall is_digit s -> length (esc s) = length s.
Proof.
  induction 1 as [|b s Hb _ IH]; [reflexivity|]. unfold esc in *. cbn [flat_map]. rewrite app_length, IH.
  assert (length (esc_byte b) = 1) as ->; [|reflexivity]. revert Hb. destruct b; vm_compute; intros [X Y]; first [reflexivity|exfalso; apply X; reflexivity|exfalso; apply Y; reflexivity].
Qed.
Lemma dec_fuel_length f : forall n k, (n < 10 ^ N.of_nat (S k))%N -> length (dec_fuel f n) <= S k.
Proof.
  induction f as [|f IH]; intros n k H; cbn [dec_fuel]; [cbn; lia|].
  destruct (N.ltb_spec n 10) as [L|L]; [cbn; lia|]. rewrite app_length. cbn [length].
  destruct k as [|k]; [change (10 ^ N.of_nat 1)%N with 10%N in H; lia|].
  assert (length (dec_fuel f (n / 10)) <= S k) as Hl; [|lia]. apply IH.
  apply N.div_lt_upper_bound; [lia|]. rewrite <- N.pow_succ_r', <- Nnat.Nat2N.inj_succ. exact H.
Qed.
Lemma id_length i : (i < 2 ^ 64)%N -> length (esc (dec i)) <= 20.
Proof.
  intros H. rewrite esc_digits by apply dec_digits. apply dec_fuel_length. eapply N.lt_trans; [exact H|]. vm_compute. reflexivity.
Qed.

(** The bytes of an instruction, with a comma. *)
Definition cost (o : op) : nat := 1 + length (print_json (op_json o)).
Definition payload_length (i : instr) : nat := match op_payload i with Some p => length (esc p) | None => 0 end.
Lemma print_str_length s : length (print_str s) = 2 + length (esc s).
Proof. unfold print_str, esc. cbn [length]. rewrite app_length. cbn [length]. lia. Qed.
Lemma cost_bound o : cost o <= 46 + length (esc (op_id o)) + payload_length (op_instr o).
Proof.
  assert (length (print_str (op_ty (op_instr o))) <= 17) as Ht by (destruct (op_instr o); vm_compute; lia).
  unfold cost, op_json, payload_length, field. cbn [print_json].
  destruct (op_payload (op_instr o)) as [p|]; cbn [map sep_by print_json fst snd]; rewrite !app_length;
    change (length (print_str (bs "el"))) with 4; change (length (print_str (bs "ty"))) with 4; change (length (bs "{")) with 1; change (length (bs "}")) with 1; change (length (bs ":")) with 1; change (length (bs ",")) with 1.
  - change (length (print_str (bs "payload"))) with 9. rewrite !print_str_length in *. lia.
  - rewrite !print_str_length in *. lia.
Qed.
(** The texts of an instruction, without ids. *)
Definition op_letters (i : instr) : nat :=
  match i with
  | SetAttribute k v => length k + length v
  | RemoveAttribute k => length k
  | SetText v => length v
  | SetTagName n => length n
  | CreateTag n _ => length n
  | AttachListener n ev => length n + length ev
  | SetInnerHtml e h => length e + length h
  | _ => 0
  end.
Definition id_text (s : str) : Prop := length (esc s) <= 20.
Definition ids_short (o : op) : Prop := id_text (op_id o) /\
  match op_instr o with
  | InsertChild i | InsertAfter i | InsertBefore i | SetId i => id_text i
  | CreateTag _ (Some p) => id_text p
  | _ => True
  end.
Lemma esc_bound s : length (esc s) <= 6 * length s. Proof. apply escs_length. Qed.
Lemma cost_short o : ids_short o -> cost o <= 90 + 6 * op_letters (op_instr o).
Proof.
  intros [H1 H2]. pose proof (cost_bound o) as H. unfold id_text in *. unfold payload_length in H.
  assert (forall a b, length (esc (a ++ plus :: b)) = length (esc a) + 1 + length (esc b)) as Hp.
  { intros a b. rewrite esc_app. change (plus :: b) with ([plus] ++ b). rewrite esc_app. change (length (esc [plus])) with 1. lia. }
  destruct (op_instr o) as [i|i|i|k v|k|i|v|n|n [p|]| | |n ev|e h|]; cbn [op_payload op_letters] in *; rewrite ?Hp in H;
    change (length (esc [])) with 0 in H;
    repeat match goal with |- context [length ?s] => lazymatch goal with B : length (esc s) <= 6 * length s |- _ => fail | _ => pose proof (esc_bound s) end end; lia.
Qed.

(** *** Sums over changesets *)
Definition total_cost (os : list op) : nat := list_sum (map cost os).
Lemma cost_app a b : total_cost (a ++ b) = total_cost a + total_cost b.
Proof. unfold total_cost. now rewrite map_app, list_sum_app. Qed.
Lemma cost_cons o os : total_cost (o :: os) = cost o + total_cost os.
Proof. reflexivity. Qed.
Lemma wire_cost os : length (wire os) <= 2 + total_cost os.
Proof.
  unfold wire. cbn [print_json]. rewrite !app_length. change (length (bs "[")) with 1. change (length (bs "]")) with 1.
  assert (length (sep_by (bs ",") (map print_json (map op_json os))) <= total_cost os); [|lia].
  induction os as [|o os IH]; [cbn; lia|]. rewrite cost_cons. unfold cost at 1. destruct os as [|o' os].
  - cbn [map sep_by]. lia.
  - change (sep_by (bs ",") (map print_json (map op_json (o :: o' :: os)))) with (print_json (op_json o) ++ bs "," ++ sep_by (bs ",") (map print_json (map op_json (o' :: os)))).
    rewrite !app_length. change (length (bs ",")) with 1. lia.
Qed.

(** What there is to a tree: 90 for each thing and 6 for each byte of text. *)
Definition volume (e : element) : nat := 90 * weight e + 6 * letters e.
Definition volumes (cs : list element) : nat := list_sum (map volume cs).
Lemma volumes_cons c cs : volumes (c :: cs) = volume c + volumes cs.
Proof. reflexivity. Qed.
Lemma volumes_app a b : volumes (a ++ b) = volumes a + volumes b.
Proof. unfold volumes. now rewrite map_app, list_sum_app. Qed.
Lemma volume_pos e : 90 <= volume e.
Proof. unfold volume. pose proof (weight_pos e). lia. Qed.
Definition attrs_volume (a : hmap str) : nat := list_sum (map (fun kv => 90 + 6 * (length (fst kv) + length (snd kv))) a).
Definition listeners_volume (ls : list listener) : nat := list_sum (map (fun l => 90 + 6 * (length (l_name l) + length (l_event l))) ls).
Definition text_volume (t : option str) : nat := match t with Some v => 90 + 6 * length v | None => 0 end.
Definition own_volume (e : element) : nat := 90 + 6 * length (el_name e) + attrs_volume (el_attrs e) + listeners_volume (el_listeners e) + text_volume (el_text e).
Lemma sum_scaled {A} (f : A -> nat) l : list_sum (map (fun x => 90 + 6 * f x) l) = 90 * length l + 6 * list_sum (map f l).
Proof. induction l as [|x l IH]; [reflexivity|]. cbn [map list_sum fold_right length]. unfold list_sum in IH. rewrite IH. lia. Qed.
Lemma volume_own e : volume e = own_volume e + volumes (el_children e).
Proof.
  destruct e as [i n a l cs t k]. unfold volume, own_volume, attrs_volume, listeners_volume. cbn [weight letters el_name el_attrs el_listeners el_text el_children].
  rewrite (sum_scaled (fun kv : str * str => length (fst kv) + length (snd kv))), (sum_scaled (fun l => length (l_name l) + length (l_event l))).
  assert (volumes cs = 90 * list_sum (map weight cs) + 6 * list_sum (map letters cs)) as ->.
  { induction cs as [|c cs IH]; [reflexivity|]. rewrite volumes_cons, IH. unfold volume. cbn [map list_sum fold_right]. unfold list_sum. lia. }
  destruct t; cbn [text_volume]; lia.
Qed.

Lemma cost_map {A} (f : A -> op) (g : A -> nat) l : (forall x, In x l -> cost (f x) <= g x) -> total_cost (map f l) <= list_sum (map g l).
Proof.
  intros H. induction l as [|x l IH]; [cbn; lia|]. cbn [map]. rewrite cost_cons. cbn [list_sum fold_right]. specialize (IH (fun y Hy => H y (or_intror Hy))). unfold list_sum in IH. pose proof (H x (or_introl eq_refl)). lia.
Qed.
Lemma cost_flat {A} (f : A -> list op) (g : A -> nat) l : (forall x, In x l -> total_cost (f x) <= g x) -> total_cost (flat_map f l) <= list_sum (map g l).
Proof.
  intros H. induction l as [|x l IH]; [cbn; lia|]. cbn [map flat_map]. rewrite cost_app. cbn [list_sum fold_right]. specialize (IH (fun y Hy => H y (or_intror Hy))). unfold list_sum in IH. pose proof (H x (or_introl eq_refl)). lia.
Qed.
Lemma sum_le {A} (f g : A -> nat) l : (forall x, f x <= g x) -> list_sum (map f l) <= list_sum (map g l).
Proof. intros H. induction l as [|x l IH]; [cbn; lia|]. cbn [map list_sum fold_right]. unfold list_sum in IH. specialize (H x). lia. Qed.

Lemma create_cost : forall e p, small_ids e -> match p with Some q => id_text q | None => True end -> total_cost (create_from_scratch e p) <= volume e.
Proof.
  induction e as [i n a l cs t k IH] using element_ind2. intros p Hs Hp. pose proof (every_root _ _ Hs) as Hi. cbn beta in Hi. cbn [el_id] in Hi.
  assert (id_text (dec i)) as Hd by now apply id_length.
  rewrite create_eq, volume_own, cost_cons, !cost_app. unfold own_volume. cbn [el_name el_attrs el_listeners el_text el_children].
  assert (cost (Op (dec i) (CreateTag n p)) <= 90 + 6 * length n) as H1 by (apply cost_short; split; [exact Hd|destruct p; exact Hp]).
  assert (total_cost (map (fun kv => Op (dec i) (SetAttribute (fst kv) (snd kv))) a) <= attrs_volume a) as H2.
  { apply cost_map. intros kv _. apply cost_short. split; [exact Hd|exact I]. }
  assert (total_cost (map (fun l => Op (dec i) (AttachListener (l_name l) (l_event l))) l) <= listeners_volume l) as H3.
  { apply cost_map. intros x _. apply cost_short. split; [exact Hd|exact I]. }
  assert (total_cost (match t with Some v => [Op (dec i) (SetText v)] | None => [] end) <= text_volume t) as H4.
  { destruct t as [v|]; [|cbn; lia]. rewrite cost_cons. cbn [text_volume]. change (total_cost []) with 0. rewrite Nat.add_0_r. apply cost_short. split; [exact Hd|exact I]. }
  assert (total_cost (flat_map (fun c => create_from_scratch c (Some (dec i))) cs) <= volumes cs) as H5.
  { apply cost_flat. intros c Hc. rewrite Forall_forall in IH. apply IH; [exact Hc| |exact Hd]. pose proof (every_children _ _ Hs) as F. rewrite Forall_forall in F. now apply F. }
  rewrite !map_app, !cost_app, !map_map.
  replace (total_cost (map (Op (dec i)) (match t with Some v => [SetText v] | None => [] end))) with (total_cost (match t with Some v => [Op (dec i) (SetText v)] | None => [] end)) by now destruct t.
  cbv beta in *. lia.
Qed.
Lemma own_cost a b : (el_id a < 2 ^ 64)%N -> (el_id b < 2 ^ 64)%N -> total_cost (diff_own a b) + total_cost (diff_id a b) <= own_volume a + 2 * own_volume b.
Proof.
  intros Ha Hb. assert (id_text (id_str a)) as Da by now apply id_length. assert (id_text (id_str b)) as Db by now apply id_length.
  unfold diff_own. rewrite !cost_app.
  assert (total_cost (diff_name a b) <= 90 + 6 * length (el_name b)) as H1.
  { unfold diff_name. destruct (str_eqb _ _); [cbn; lia|]. rewrite cost_cons. change (total_cost []) with 0. rewrite Nat.add_0_r. apply cost_short. split; [exact Db|exact I]. }
  assert (total_cost (diff_id a b) <= 90) as H2.
  { unfold diff_id. destruct (N.eqb _ _); [cbn; lia|]. rewrite cost_cons. change (total_cost []) with 0. rewrite Nat.add_0_r. apply (cost_short (Op (id_str a) (SetId (id_str b)))). split; [exact Da|exact Db]. }
  assert (total_cost (diff_attributes a b) <= attrs_volume (el_attrs a) + attrs_volume (el_attrs b)) as H3.
  { unfold diff_attributes. destruct (hm_eqb _ _); [cbn; lia|]. rewrite cost_app. apply Nat.add_le_mono.
    - unfold keys. etransitivity; [apply (cost_flat _ (fun k => 90 + 6 * length k))|].
      + intros k _. destruct (contains_key _ _); [cbn; lia|]. rewrite cost_cons. change (total_cost []) with 0. rewrite Nat.add_0_r. apply cost_short. split; [exact Da|exact I].
      + rewrite map_map. apply sum_le. intros [k v]. cbn [fst snd]. lia.
    - apply cost_flat. intros kv _.
      assert (total_cost [Op (id_str a) (SetAttribute (fst kv) (snd kv))] <= 90 + 6 * (length (fst kv) + length (snd kv))) as Hk.
      { rewrite cost_cons. change (total_cost []) with 0. rewrite Nat.add_0_r. apply cost_short. split; [exact Da|exact I]. }
      destruct (get _ _) as [m|]; [destruct (str_eqb _ _)|]; [cbn; lia|exact Hk|exact Hk]. }
  assert (total_cost (diff_listeners a b) <= 90 + listeners_volume (el_listeners b)) as H4.
  { unfold diff_listeners. destruct (listeners_eqb _ _); [cbn; lia|]. rewrite cost_cons. apply Nat.add_le_mono.
    - apply (cost_short (Op (id_str a) RemoveListeners)). split; [exact Da|exact I].
    - apply cost_map. intros x _. apply cost_short. split; [exact Db|exact I]. }
  assert (total_cost (diff_text a b) <= text_volume (el_text a) + text_volume (el_text b)) as H5.
  { unfold diff_text. destruct (el_text a) as [x|], (el_text b) as [y|]; cbn [text_eqb text_volume]; try destruct (str_eqb x y); try (cbn; lia); rewrite cost_cons; change (total_cost []) with 0; rewrite Nat.add_0_r.
    - etransitivity; [apply cost_short; split; [exact Da|exact I]|]. cbn [op_instr op_letters]. lia.
    - etransitivity; [apply (cost_short (Op (id_str a) RemoveText)); split; [exact Da|exact I]|]. cbn [op_instr op_letters]. lia.
    - etransitivity; [apply cost_short; split; [exact Da|exact I]|]. cbn [op_instr op_letters]. lia. }
  unfold own_volume. lia.
Qed.

Definition ocost (o : option (list op)) : nat := match o with Some x => total_cost x | None => 0 end.
Lemma cat_cost l os : cat_ops l = Some os -> total_cost os = list_sum (map ocost l).
Proof.
  revert os. induction l as [|[o|] l IH]; intros os; cbn [cat_ops]; [intros [= <-]; reflexivity| |discriminate].
  destruct (cat_ops l) as [o'|] eqn:E; [|discriminate]. intros [= <-]. cbn [map list_sum fold_right ocost]. rewrite cost_app. f_equal. now apply IH.
Qed.

Lemma zip_cost : forall ds cs, Forall small_ids cs ->
  Forall (fun d => forall c, small_ids c -> ocost (diff_to d c) <= volume c + 2 * volume d) ds ->
  list_sum (map ocost (zip_ops ds cs)) <= volumes (firstn (length ds) cs) + 2 * volumes (firstn (length cs) ds).
Proof.
  intros ds cs Hc H. revert cs Hc. induction H as [|d ds Hd _ IH]; intros [|c cs] Hc; cbn [zip_ops map list_sum fold_right firstn length]; try (cbn; lia).
  rewrite !volumes_cons. inversion Hc as [|? ? C1 C2]; subst. specialize (IH cs C2). specialize (Hd c C1). unfold list_sum in IH. lia.
Qed.

(** What the old children that have one of these keys amount to. *)
Definition vamong (ks : list str) (cs : list element) : nat :=
  list_sum (map (fun c => match el_key c with Some k => if existsb (str_eqb k) ks then volume c else 0 | None => 0 end) cs).
Lemma vamong_more k ks cs : vamong ks cs <= vamong (k :: ks) cs.
Proof.
  unfold vamong. apply sum_le. intros y. destruct (el_key y); [|lia]. cbn [existsb]. destruct (str_eqb _ k); cbn [orb]; destruct (existsb _ ks); lia.
Qed.
Lemma vamong_cons k ks cs c : ~ In k ks -> locate k cs = Some c -> volume c + vamong ks cs <= vamong (k :: ks) cs.
Proof.
  intros Hn. unfold locate. induction cs as [|x cs IH]; cbn [find]; [discriminate|].
  assert (forall K, vamong K (x :: cs) = match el_key x with Some k0 => if existsb (str_eqb k0) K then volume x else 0 | None => 0 end + vamong K cs) as E by reflexivity.
  rewrite !E. unfold key_is at 1. destruct (el_key x) as [k'|] eqn:Ek.
  - destruct (str_eqb k' k) eqn:Es.
    + intros [= <-]. apply str_eqb_eq in Es as ->. cbn [existsb]. assert (str_eqb k k = true) as -> by now apply str_eqb_eq. cbn [orb].
      assert (existsb (str_eqb k) ks = false) as ->.
      { apply Bool.not_true_is_false. intros H. apply existsb_exists in H as (z & Hz & E1). apply str_eqb_eq in E1 as ->. auto. }
      pose proof (vamong_more k ks cs). lia.
    + intros H. specialize (IH H). cbn [existsb]. rewrite Es. cbn [orb]. lia.
  - intros H. specialize (IH H). lia.
Qed.

Lemma locate_in k cs c : locate k cs = Some c -> In c cs.
Proof. intros H. now apply List.find_some in H. Qed.
Lemma pair_cost mine : Forall small_ids mine -> forall ds, NoDup (keys_among ds) ->
  Forall (fun d => forall c, small_ids c -> ocost (diff_to d c) <= volume c + 2 * volume d) ds -> forall n,
  list_sum (map ocost (pair_ops mine ds)) + 90 * length (unpaired mine n ds) <= vamong (keys_among ds) mine + 2 * volumes ds.
Proof.
  intros Hm ds Hn H. induction H as [|d ds Hd _ IH]; intros n; [cbn; lia|].
  cbn [pair_ops unpaired keys_among flat_map] in *. fold (keys_among ds) in *.
  rewrite volumes_cons. pose proof (volume_pos d).
  destruct (el_key d) as [k|] eqn:Ek; cbn [app] in *.
  - inversion Hn as [|? ? Hk Hn']; subst. specialize (IH Hn' (S n)).
    destruct (locate k mine) as [c|] eqn:El.
    + pose proof (vamong_cons k _ _ _ Hk El). rewrite Forall_forall in Hm. specialize (Hd c (Hm _ (locate_in _ _ _ El))). cbn [map list_sum fold_right]. unfold list_sum in IH. lia.
    + pose proof (vamong_more k (keys_among ds) mine). cbn [length]. lia.
  - specialize (IH Hn (S n)). cbn [length]. lia.
Qed.
Lemma deletes_cost mine ds : Forall small_ids mine -> vamong (keys_among ds) mine + total_cost (keyed_deletes mine ds) <= volumes mine.
Proof.
  intros Hm. unfold keyed_deletes. induction Hm as [|c mine Hc _ IH]; [cbn; lia|]. cbn [flat_map]. rewrite cost_app, volumes_cons.
  assert (vamong (keys_among ds) (c :: mine) = match el_key c with Some k0 => if existsb (str_eqb k0) (keys_among ds) then volume c else 0 | None => 0 end + vamong (keys_among ds) mine) as -> by reflexivity.
  assert (total_cost [Op (id_str c) DeleteEl] <= 90) as Hd.
  { rewrite cost_cons. change (total_cost []) with 0. rewrite Nat.add_0_r. apply (cost_short (Op (id_str c) DeleteEl)). split; [|exact I]. apply id_length. now apply every_root in Hc. }
  pose proof (volume_pos c). destruct (el_key c) as [k|]; [|change (total_cost []) with 0; lia].
  destruct (existsb (str_eqb k) (keys_among ds)) eqn:Ex.
  - pose proof (locate_none_key _ _ Ex). destruct (locate k ds); [change (total_cost []) with 0; lia|congruence].
  - destruct (locate k ds); [change (total_cost []) with 0|]; lia.
Qed.
Lemma inserts_cost ds n un os : Forall small_ids ds -> cat_ops (map (keyed_insert ds n) un) = Some os -> total_cost os <= 90 * length un.
Proof.
  intros Hs E. apply cat_cost in E. rewrite E, map_map. clear E. induction un as [|u un IH]; [cbn; lia|]. cbn [map list_sum fold_right length]. unfold list_sum in IH.
  assert (ocost (keyed_insert ds n u) <= 90) as Hc; [|lia].
  assert (forall j x, nth_error ds j = Some x -> id_text (id_str x)) as Hi.
  { intros j x Hj. apply id_length. rewrite Forall_forall in Hs. apply nth_error_In in Hj. apply Hs in Hj. now apply every_root in Hj. }
  unfold keyed_insert. destruct (nth_error ds u) as [e|] eqn:E0; [|cbn; lia]. apply Hi in E0.
  destruct (Nat.eqb u 0); [destruct (nth_error ds 1) as [x|] eqn:E1; [|cbn; lia]|destruct (Nat.eqb u n); [|destruct (nth_error ds (u - 1)) as [x|] eqn:E1; [|cbn; lia]]];
    cbn [ocost]; rewrite cost_cons; change (total_cost []) with 0; rewrite Nat.add_0_r.
  - apply (cost_short (Op (id_str e) (InsertBefore (id_str x)))). split; [exact E0|]. now apply (Hi 1).
  - apply (cost_short (Op (id_str e) (InsertAfter (id_str e)))). split; exact E0.
  - apply (cost_short (Op (id_str e) (InsertBefore (id_str x)))). split; [exact E0|]. now apply (Hi (u - 1)).
Qed.

Lemma update_cost : forall b, distinct_keys b -> small_ids b -> forall a, small_ids a -> ocost (diff_to b a) <= volume a + 2 * volume b.
Proof.
  induction b as [bi bn ba bl bc bt bk IH] using element_ind2. intros Hd Sb a Sa.
  set (b := Element bi bn ba bl bc bt bk) in *.
  assert (Forall (fun d => forall c, small_ids c -> ocost (diff_to d c) <= volume c + 2 * volume d) bc) as IH'.
  { pose proof (every_children _ _ Hd) as Hc. pose proof (every_children _ _ Sb) as Hs. change (el_children b) with bc in *. rewrite Forall_forall in *. intros d Hin. apply IH; [exact Hin|exact (Hc d Hin)|exact (Hs d Hin)]. }
  pose proof (every_root _ _ Hd) as Hn. cbn beta in Hn. change (el_children b) with bc in Hn.
  pose proof (every_children _ _ Sa) as Sac. pose proof (every_children _ _ Sb) as Sbc. change (el_children b) with bc in Sbc. pose proof (every_root _ _ Sa) as Ia. pose proof (every_root _ _ Sb) as Ib. cbn beta in Ia, Ib.
  destruct (diff_to b a) as [os|] eqn:E; [|cbn; lia]. cbn [ocost]. rewrite diff_to_eq in E. apply cat_cost in E. rewrite E. clear E os.
  cbn [map list_sum fold_right]. pose proof (own_cost a b Ia Ib) as Ho. rewrite (volume_own a), (volume_own b). change (el_children b) with bc.
  assert (ocost (if all_keyed a && all_keyed b then keyed_kids (el_children a) bc else plain_kids (el_id a) (el_children a) bc)
          <= volumes (el_children a) + 2 * volumes bc) as Hk.
  { destruct (all_keyed a && all_keyed b).
    - unfold keyed_kids. destruct (cat_ops _) as [os|] eqn:E; [|cbn; lia]. cbn [ocost].
      pose proof (cat_cost _ _ E) as ->. cbn [cat_ops] in E. cbn [map list_sum fold_right].
      destruct (cat_ops (pair_ops _ _)) as [o1|] eqn:E1; [|discriminate].
      destruct (cat_ops (map _ _)) as [o2|] eqn:E2; [|discriminate].
      apply cat_cost in E1. apply inserts_cost in E2; [|exact Sbc]. pose proof (pair_cost (el_children a) Sac bc Hn IH' 0). pose proof (deletes_cost (el_children a) bc Sac).
      unfold ocost in *. lia.
    - unfold plain_kids. destruct (cat_ops _) as [os|] eqn:E; [|cbn; lia]. cbn [ocost].
      pose proof (cat_cost _ _ E) as ->. cbn [cat_ops] in E. cbn [map list_sum fold_right].
      destruct (cat_ops (zip_ops _ _)) as [o1|] eqn:E1; [|discriminate].
      apply cat_cost in E1. pose proof (zip_cost bc (el_children a) Sac IH').
      assert (total_cost (map (fun c => Op (id_str c) DeleteEl) (skipn (length bc) (el_children a))) <= volumes (skipn (length bc) (el_children a))) as D1.
      { apply cost_map. intros c Hc. transitivity 90; [|apply volume_pos]. apply (cost_short (Op (id_str c) DeleteEl)). split; [|exact I]. apply id_length.
        rewrite Forall_forall in Sac. assert (In c (el_children a)) as Hc' by (rewrite <- (firstn_skipn (length bc)); apply in_app_iff; now right). apply Sac in Hc'. now apply every_root in Hc'. }
      assert (total_cost (flat_map (fun d => create_from_scratch d (Some (dec (el_id a)))) (skipn (length (el_children a)) bc)) <= volumes (skipn (length (el_children a)) bc)) as D2.
      { apply cost_flat. intros d Hin. apply create_cost; [|now apply id_length]. rewrite Forall_forall in Sbc. apply Sbc. rewrite <- (firstn_skipn (length (el_children a))). apply in_app_iff. now right. }
      pose proof (volumes_app (firstn (length bc) (el_children a)) (skipn (length bc) (el_children a))) as Ta.
      pose proof (volumes_app (firstn (length (el_children a)) bc) (skipn (length (el_children a)) bc)) as Tb.
      rewrite firstn_skipn in Ta, Tb. unfold ocost in *. lia. }
  cbn [ocost]. lia.
Qed.

(** ** C117 in bytes *)

(** The first text: at most 90 bytes for each element, attribute, listener and text, and 6 for each byte of text on the page. *)
Theorem C117_first_paint_bytes : forall e, small_ids e ->
  length (wire (create_from_scratch e None)) <= 2 + 90 * weight e + 6 * letters e.
Proof. intros e H. pose proof (wire_cost (create_from_scratch e None)). pose proof (create_cost e None H I). unfold volume in *. lia. Qed.
Print Assumptions C117_first_paint_bytes.
(** The text of an update: the same for the two pages, the new one counted twice. *)
Theorem C117_update_bytes_partial : forall a b os, distinct_keys b -> small_ids a -> small_ids b -> diff a (Some b) = Some os ->
  length (wire os) <= 2 + 90 * (weight a + 2 * weight b) + 6 * (letters a + 2 * letters b).
Proof.
  intros a b os Hd Ha Hb E. pose proof (update_cost b Hd Hb a Ha) as H. cbn [diff] in E. rewrite E in H. cbn [ocost] in H. pose proof (wire_cost os). unfold volume in *. lia.
Qed.
Print Assumptions C117_update_bytes_partial.

Example C117_bytes_example :
  small_ids size_old /\ small_ids size_new /\ distinct_keys size_new /\
  (0 < letters size_old)%nat /\
  (exists os, diff size_old (Some size_new) = Some os /\ 90 < length (wire os)) /\
  300 < length (wire (create_from_scratch size_old None)).
Proof.
  split; [repeat constructor|]. split; [repeat constructor|]. split; [apply C117_example|].
  split; [vm_compute; repeat constructor|]. split.
  - destruct (diff size_old (Some size_new)) as [os|] eqn:E; [|vm_compute in E; discriminate]. exists os. split; [reflexivity|]. revert E. vm_compute. intros [= <-]. vm_compute. apply Nat.leb_le. reflexivity.
  - apply Nat.leb_le. vm_compute. reflexivity.
Qed.
