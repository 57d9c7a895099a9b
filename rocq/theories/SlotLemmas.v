(** Canonical slot arrays and what the slot operations do on them. *)
From stdpp Require Import list.
From Verif Require Import Base Slots.

Lemma obind_Ok {X Y} (x : X) (f : X -> outcome Y) : obind (Ok x) f = f x.
Proof. reflexivity. Qed.

Lemma obind_Ok_inv {X Y} (o : outcome X) (f : X -> outcome Y) y :
  obind o f = Ok y -> exists x, o = Ok x /\ f x = Ok y.
Proof. destruct o; simpl; intros H; try discriminate; eauto. Qed.

(** Insert at a position. *)
Definition linsert {T} (i : nat) (x : T) (l : list T) : list T := take i l ++ x :: drop i l.

Lemma linsert_length {T} i (x : T) l : length (linsert i x l) = S (length l).
Proof. unfold linsert. rewrite app_length. simpl. rewrite take_length, drop_length. lia. Qed.

Lemma linsert_app {T} (a b : list T) x : linsert (length a) x (a ++ b) = a ++ x :: b.
Proof. unfold linsert. by rewrite take_app, drop_app. Qed.

Lemma linsert_app' {T} (a b : list T) x n : n = length a -> linsert n x (a ++ b) = a ++ x :: b.
Proof. intros ->. apply linsert_app. Qed.

Lemma linsert_map {T U} (f : T -> U) i x l :
  map f (linsert i x l) = linsert i (f x) (map f l).
Proof. unfold linsert. rewrite map_app, firstn_map, skipn_map. done. Qed.

Lemma delete_middle' {T} (a b : list T) x n : n = length a -> delete n (a ++ x :: b) = a ++ b.
Proof. intros ->. apply delete_middle. Qed.

Lemma insert_middle' {T} (a b : list T) x y n :
  n = length a -> <[n := y]> (a ++ x :: b) = a ++ y :: b.
Proof. intros ->. rewrite insert_app_r_alt by lia. by rewrite Nat.sub_diag. Qed.

Lemma lookup_middle' {T} (a b : list T) x n : n = length a -> (a ++ x :: b) !! n = Some x.
Proof. intros ->. by apply list_lookup_middle. Qed.

Lemma take_app' {T} (a b : list T) n : n = length a -> take n (a ++ b) = a.
Proof. intros ->. apply take_app. Qed.
Lemma drop_app' {T} (a b : list T) n : n = length a -> drop n (a ++ b) = b.
Proof. intros ->. apply drop_app. Qed.

Lemma drop_S_middle {T} (a b : list T) x n : n = S (length a) -> drop n (a ++ x :: b) = b.
Proof.
  intros ->. change (x :: b) with ([x] ++ b). rewrite app_assoc.
  apply drop_app'. rewrite app_length. simpl. lia.
Qed.

Lemma split_at {T} (l : list T) n : n <= length l ->
  exists a b, l = a ++ b /\ length a = n.
Proof.
  intros H. exists (take n l), (drop n l). rewrite take_drop, take_length. split; [done|lia].
Qed.

Lemma split_at_elem {T} (l : list T) n x : l !! n = Some x ->
  exists a b, l = a ++ x :: b /\ length a = n.
Proof.
  intros H. exists (take n l), (drop (S n) l). rewrite take_drop_middle by done.
  split; [done|]. apply lookup_lt_Some in H. rewrite take_length. lia.
Qed.

Lemma repeat_add {T} (x : T) a b : repeat x (a + b) = repeat x a ++ repeat x b.
Proof. induction a; simpl; congruence. Qed.

(** ** Canonical arrays *)
Definition mk_slots {T} (cap : nat) (l : list T) : slots T :=
  map Some l ++ repeat None (cap - length l).

Section Slots.
Context {T : Type} {PF : Profile}.
Implicit Types (l : list T) (s : slots T).

Lemma mk_slots_length cap l : length l <= cap -> length (mk_slots cap l) = cap.
Proof. unfold mk_slots. rewrite app_length, map_length, repeat_length. lia. Qed.

Lemma slots_empty_mk n : slots_empty n = mk_slots n (@nil T).
Proof. unfold mk_slots, slots_empty. simpl. by rewrite Nat.sub_0_r. Qed.

Lemma mk_slots_full cap l : length l = cap -> mk_slots cap l = map Some l.
Proof. intros <-. unfold mk_slots. rewrite Nat.sub_diag. simpl. by rewrite app_nil_r. Qed.

Lemma slots_all_map l : slots_all (map Some l) = Ok l.
Proof. induction l; simpl; [done|]. by rewrite IHl. Qed.

Lemma mk_slots_take cap l n : n <= length l -> take n (mk_slots cap l) = map Some (take n l).
Proof.
  intros H. unfold mk_slots. rewrite take_app_le by (rewrite map_length; lia).
  by rewrite firstn_map.
Qed.

Lemma slots_prefix_mk cap l n : length l <= cap -> n = length l ->
  slots_prefix (mk_slots cap l) n = Ok l.
Proof.
  intros H ->. unfold slots_prefix. rewrite mk_slots_length by done.
  rewrite decide_True by done. rewrite mk_slots_take by lia.
  rewrite firstn_all. apply slots_all_map.
Qed.

Lemma mk_slots_lookup cap l i x : l !! i = Some x -> mk_slots cap l !! i = Some (Some x).
Proof.
  intros H. unfold mk_slots. rewrite lookup_app_l.
  - change (map Some l) with (Some <$> l). rewrite list_lookup_fmap, H. done.
  - rewrite map_length. by apply lookup_lt_Some in H.
Qed.

Lemma mk_slots_lookup_None cap l i : length l <= i -> i < cap ->
  mk_slots cap l !! i = Some None.
Proof.
  intros H1 H2. unfold mk_slots. rewrite lookup_app_r by (rewrite map_length; lia).
  rewrite map_length.
  assert (forall n j, j < n -> repeat (@None T) n !! j = Some None) as R.
  { induction n; intros j Hj; [lia|]. destruct j; simpl; [done|]. apply IHn. lia. }
  apply R. lia.
Qed.

Lemma slot_get_mk cap l i x : l !! i = Some x -> slot_get (mk_slots cap l) i = Ok x.
Proof. intros H. unfold slot_get. by rewrite (mk_slots_lookup _ _ _ _ H). Qed.

Lemma mk_slots_insert cap l i x : i < length l ->
  <[i := Some x]> (mk_slots cap l) = mk_slots cap (<[i := x]> l).
Proof.
  intros H. unfold mk_slots. rewrite insert_app_l by (rewrite map_length; lia).
  rewrite insert_length. f_equal.
  change (map Some ?l) with (Some <$> l). by rewrite list_fmap_insert.
Qed.

Lemma slot_replace_mk cap l i x y : l !! i = Some y ->
  slot_replace (mk_slots cap l) i x = Ok (y, mk_slots cap (<[i := x]> l)).
Proof.
  intros H. unfold slot_replace. rewrite (mk_slots_lookup _ _ _ _ H).
  rewrite mk_slots_insert; [done|]. by apply lookup_lt_Some in H.
Qed.

Lemma repeat_drop (x : option T) n m : drop m (repeat x n) = repeat x (n - m).
Proof.
  revert m. induction n; intros m; simpl; [by rewrite drop_nil|].
  destruct m; simpl; [done|]. apply IHn.
Qed.
Lemma repeat_take (x : option T) n m : take m (repeat x n) = repeat x (n `min` m).
Proof.
  revert m. induction n; intros m; simpl; [by rewrite take_nil|].
  destruct m; simpl; [done|]. by rewrite IHn.
Qed.

Lemma vacant_repeat n : slots_vacant (repeat (@None T) n) = true.
Proof. induction n; [done|]. exact IHn. Qed.

Lemma vacant_mk cap l n m : length l <= n -> slots_vacant (take m (drop n (mk_slots cap l))) = true.
Proof.
  intros H. unfold mk_slots. rewrite drop_app_ge by (rewrite map_length; lia).
  rewrite map_length, repeat_drop, repeat_take. apply vacant_repeat.
Qed.

Lemma vacant_mk_drop cap l n : length l <= n -> slots_vacant (drop n (mk_slots cap l)) = true.
Proof.
  intros H. rewrite <- (firstn_all (drop n (mk_slots cap l))). by apply vacant_mk.
Qed.

Lemma if_vacant_true {X} s (e : outcome X) : slots_vacant s = true -> if_vacant s e = e.
Proof. unfold if_vacant. by intros ->. Qed.

Lemma if_vacant_Ok {X} s (e : outcome X) x : if_vacant s e = Ok x -> slots_vacant s = true /\ e = Ok x.
Proof. unfold if_vacant. destruct (slots_vacant s); [done|discriminate]. Qed.

Lemma slot_put_mk cap l i x : i = length l -> length l < cap ->
  slot_put (mk_slots cap l) i x = Ok (mk_slots cap (l ++ [x])).
Proof.
  intros -> H. unfold slot_put. rewrite mk_slots_lookup_None by lia. f_equal.
  unfold mk_slots. rewrite insert_app_r_alt by (rewrite map_length; lia).
  rewrite map_length, Nat.sub_diag, map_app, app_length. simpl length.
  replace (cap - length l) with (S (cap - (length l + 1))) by lia. simpl.
  by rewrite <- app_assoc.
Qed.

Lemma slot_take_last cap l x : length l < cap ->
  slot_take (mk_slots cap (l ++ [x])) (length l) = Ok (x, mk_slots cap l).
Proof.
  intros H. unfold slot_take.
  rewrite (mk_slots_lookup _ _ _ x) by (by rewrite lookup_middle').
  f_equal. f_equal. unfold mk_slots. rewrite map_app, <- app_assoc. simpl.
  rewrite insert_middle' by (by rewrite map_length).
  rewrite app_length. simpl.
  replace (cap - length l) with (S (cap - (length l + 1))) by lia. done.
Qed.

Lemma slice_insert_mk cap l n i x : i <= length l -> length l < n -> n <= cap ->
  slice_insert (mk_slots cap l) n i x = Ok (mk_slots cap (linsert i x l)).
Proof.
  intros Hi Hn Hc. unfold slice_insert. rewrite mk_slots_length by lia.
  rewrite decide_True by done. rewrite decide_True by lia.
  rewrite if_vacant_true.
  2:{ replace (drop (n - 1) (take n (mk_slots cap l))) with (take 1 (drop (n - 1) (mk_slots cap l))).
      - apply vacant_mk. lia.
      - rewrite firstn_skipn_comm. do 2 f_equal. lia. }
  f_equal.
  destruct (split_at l i Hi) as (a & b & -> & Hl).
  rewrite linsert_app' by done. rewrite app_length in *.
  unfold mk_slots at 4. rewrite map_app. simpl.
  unfold mk_slots. rewrite !map_app, <- !app_assoc. simpl.
  rewrite take_app' by (by rewrite map_length).
  rewrite drop_app' by (by rewrite map_length).
  f_equal. f_equal.
  rewrite take_app_ge by (rewrite map_length; lia).
  rewrite <- app_assoc. f_equal.
  rewrite map_length, repeat_take.
  rewrite app_assoc. rewrite drop_app_ge by (rewrite app_length, !map_length; lia).
  rewrite repeat_drop, <- repeat_add. f_equal.
  rewrite ?app_length, ?map_length. simpl. lia.
Qed.

Lemma slice_remove_mk cap l n i x : l !! i = Some x -> n = length l -> length l <= cap ->
  slice_remove (mk_slots cap l) n i = Ok (x, mk_slots cap (delete i l)).
Proof.
  intros H -> Hc. unfold slice_remove. rewrite mk_slots_length by lia.
  rewrite decide_True by done. pose proof (lookup_lt_Some _ _ _ H).
  rewrite decide_True by lia. rewrite (mk_slots_lookup _ _ _ _ H). f_equal. f_equal.
  destruct (split_at_elem _ _ _ H) as (a & b & -> & Hl).
  rewrite delete_middle' by done. rewrite app_length in *. simpl in *.
  assert (mk_slots cap (a ++ x :: b) = map Some a ++ Some x :: map Some b ++
    repeat None (cap - (length a + S (length b)))) as ->.
  { unfold mk_slots. rewrite map_app, <- app_assoc, app_length. done. }
  rewrite take_app' by (by rewrite map_length).
  rewrite drop_S_middle by (rewrite map_length; lia).
  rewrite take_app' by (rewrite map_length; lia).
  assert (forall X : slots T, map Some a ++ Some x :: map Some b ++ X =
    (map Some a ++ Some x :: map Some b) ++ X) as E by (intros; by rewrite <- app_assoc).
  rewrite E, drop_app' by (rewrite app_length; simpl; rewrite !map_length; lia).
  unfold mk_slots. rewrite map_app, <- app_assoc, app_length.
  replace (cap - (length a + length b)) with (S (cap - (length a + S (length b)))) by lia.
  done.
Qed.

(** [move_to_slice] on explicitly decomposed arrays *)
Lemma move_to_slice_app (a b c d e f : slots T) na nb nc nd :
  na = length a -> nb = length a + length b -> nc = length d -> nd = length d + length e ->
  length b = length e -> slots_vacant e = true ->
  move_to_slice (a ++ b ++ c) na nb (d ++ e ++ f) nc nd =
    Ok (a ++ repeat None (length b) ++ c, d ++ b ++ f).
Proof.
  intros -> -> -> -> He Hv. unfold move_to_slice.
  rewrite decide_True by (rewrite !app_length; lia).
  rewrite decide_True by lia.
  rewrite if_vacant_true.
  2:{ rewrite drop_app, take_app' by lia. done. }
  f_equal.
  replace (length a + length b - length a) with (length b) by lia.
  rewrite !take_app, !drop_app. f_equal.
  - f_equal. f_equal. rewrite app_assoc. rewrite drop_app' by (rewrite app_length; lia). done.
  - f_equal. rewrite take_app. f_equal.
    rewrite app_assoc. rewrite drop_app' by (rewrite app_length; lia). done.
Qed.

(** Moving the tail of a canonical array to the end of another *)
Lemma move_tail_mk cap cap' (a b dst : list T) na nb nc nd :
  length (a ++ b) <= cap -> length (dst ++ b) <= cap' ->
  na = length a -> nb = length (a ++ b) -> nc = length dst -> nd = length (dst ++ b) ->
  move_to_slice (mk_slots cap (a ++ b)) na nb (mk_slots cap' dst) nc nd =
    Ok (mk_slots cap a, mk_slots cap' (dst ++ b)).
Proof.
  intros Hc Hc' -> -> -> ->. rewrite !app_length in *.
  assert (mk_slots cap (a ++ b) =
    map Some a ++ map Some b ++ repeat None (cap - (length a + length b))) as ->.
  { unfold mk_slots. by rewrite map_app, <- app_assoc, app_length. }
  assert (mk_slots cap' dst = map Some dst ++ repeat None (length b) ++
    repeat None (cap' - (length dst + length b))) as ->.
  { unfold mk_slots. rewrite <- repeat_add. do 2 f_equal. lia. }
  rewrite move_to_slice_app; rewrite ?map_length, ?repeat_length; try lia; [|apply vacant_repeat].
  f_equal. f_equal.
  - unfold mk_slots. rewrite <- repeat_add. do 2 f_equal. lia.
  - unfold mk_slots. by rewrite map_app, <- app_assoc, app_length.
Qed.

End Slots.

Lemma mk_slots_map_Some_app {T} cap (a b : list T) :
  mk_slots cap (a ++ b) = map Some a ++ mk_slots (cap - length a) b.
Proof.
  unfold mk_slots. rewrite map_app, <- app_assoc, app_length. do 3 f_equal. lia.
Qed.
