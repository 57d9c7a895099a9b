(** What [validate] accepts, and that it accepts every tree the library builds. *)
From stdpp Require Import list.
From Verif Require Import Base Slots BinSearch LeafNode InnerNode Store Tree Remove Iterators Observe BulkLoad History Spec
  SlotLemmas NodeLemmas Order Logical Descent InsertProof InvLemmas Lookup HistProof HistTop AnySpec AnyHist AnyProof OrphanAny Validate ValidateSpec.

Section ValidateProof.
Context {K V A : Type} {PF : Profile}.
Notation store := (store K V A).

Lemma links_nodup (s : store) ids : list_links s ids -> NoDup ids.
Proof.
  intros H.
  assert (forall i j k, i < j -> ids !! i = ids !! j -> j + k <= length ids -> ids !! (i + k) = ids !! (j + k)) as Hs.
  { intros i j k Hij E. induction k as [|k IH]; intros Hk; [by rewrite !Nat.add_0_r|].
    specialize (IH ltac:(lia)). destruct (ids !! (j + k)) as [x|] eqn:Ej; [|apply lookup_ge_None in Ej; lia].
    destruct (H _ _ IH) as (n & E1 & E2 & _). destruct (H _ _ Ej) as (n' & E1' & E2' & _).
    replace (i + S k) with (S (i + k)) by lia. replace (j + S k) with (S (j + k)) by lia. congruence. }
  assert (forall i j x, i < j -> ids !! i = Some x -> ids !! j = Some x -> False) as Hn.
  { intros i j x Hij Ei Ej. pose proof (lookup_lt_Some _ _ _ Ej) as Hj.
    pose proof (Hs i j (length ids - j) Hij ltac:(congruence) ltac:(lia)) as E.
    replace (j + (length ids - j)) with (length ids) in E by lia.
    rewrite (lookup_ge_None_2 ids (length ids)) in E by lia. apply lookup_ge_None in E. lia. }
  apply NoDup_alt. intros i j x Ei Ej. destruct (lt_eq_lt_dec i j) as [[Hl|]|Hl]; [|done|].
  - by destruct (Hn i j x).
  - by destruct (Hn j i x).
Qed.

Lemma live_length (s : store) ids : NoDup ids -> (forall id, id ∈ ids -> exists n, get_leaf s id = Ok n) ->
  length ids <= length (leaves s).
Proof.
  intros Hn Hl. rewrite <- (seq_length (length (leaves s)) 0). apply submseteq_length, NoDup_submseteq; [done|].
  intros id Hin. destruct (Hl _ Hin) as [n E]. unfold get_leaf in E.
  destruct (leaves s !! id) as [o|] eqn:El; [|done]. apply lookup_lt_Some in El. apply elem_of_list_In, in_seq. lia.
Qed.

(** The loop as it stands at [id] after [pre]. *)
Lemma loop_sound fuel (s : store) pre id : (forall i x, (pre ++ [id]) !! S i = Some x -> i < length pre) ->
  validate_loop fuel s (list.last pre) id = Ok tt ->
  (forall i x, pre !! i = Some x -> exists n, get_leaf s x = Ok n /\ l_next n = (pre ++ [id]) !! S i /\
    forall j, i = S j -> l_prev n = pre !! j) ->
  exists post, list_links s (pre ++ id :: post).
Proof.
  revert pre id. induction fuel as [|fuel IH]; intros pre id _; [done|]. cbn [validate_loop].
  destruct (get_leaf s id) as [n| | | |] eqn:En; try done. rewrite obind_Ok.
  intros Hv Hp.
  assert (forall j, length pre = S j -> l_prev n = pre !! j) as Hpr.
  { intros j Hj. rewrite last_lookup in Hv. rewrite Hj in Hv. simpl in Hv.
    destruct (pre !! j) as [x|] eqn:Ex; [|apply lookup_ge_None in Ex; lia].
    destruct (l_prev n) as [p|]; [|done]. by destruct (decide (x = p)) as [->|]. }
  destruct (l_next n) as [nx|] eqn:Enx.
  - assert (validate_loop fuel s (list.last (pre ++ [id])) nx = Ok tt) as Hv'.
    { rewrite last_snoc. destruct (list.last pre) as [x|]; [|done].
      destruct (l_prev n) as [p|]; [|done]. by destruct (decide (x = p)). }
    apply IH in Hv' as [post Hpost].
    + exists (nx :: post). by rewrite <- app_assoc in Hpost.
    + intros i x Hi. apply lookup_lt_Some in Hi. rewrite app_length in Hi. simpl in Hi. lia.
    + intros i x Hi. destruct (decide (i < length pre)) as [Hlt|Hge].
      * rewrite lookup_app_l in Hi by done. destruct (Hp _ _ Hi) as (m & E1 & E2 & E3). exists m. split; [done|].
        split.
        -- rewrite E2, (lookup_app_l (pre ++ [id])); [done|]. rewrite app_length. simpl. lia.
        -- intros j ->. rewrite (E3 j eq_refl), lookup_app_l; [done|lia].
      * pose proof (lookup_lt_Some _ _ _ Hi) as Hlt. rewrite app_length in Hlt. simpl in Hlt.
        assert (i = length pre) as -> by lia. rewrite lookup_app_r, Nat.sub_diag in Hi by lia. injection Hi as <-.
        exists n. split; [done|]. split.
        -- rewrite lookup_app_r by (rewrite app_length; simpl; lia). rewrite app_length. simpl.
           by replace (S (length pre) - (length pre + 1)) with 0 by lia.
        -- intros j Hj. rewrite (Hpr j Hj), lookup_app_l; [done|lia].
  - exists []. intros i x Hi. destruct (decide (i < length pre)) as [Hlt|Hge].
    + rewrite lookup_app_l in Hi by done. destruct (Hp _ _ Hi) as (m & E1 & E2 & E3). exists m. split; [done|].
      split; [done|]. intros j ->. rewrite (E3 j eq_refl), lookup_app_l; [done|lia].
    + pose proof (lookup_lt_Some _ _ _ Hi) as Hlt. rewrite app_length in Hlt. simpl in Hlt.
      assert (i = length pre) as -> by lia. rewrite lookup_app_r, Nat.sub_diag in Hi by lia. injection Hi as <-.
      exists n. split; [done|]. split.
      * rewrite Enx. symmetry. apply lookup_ge_None. rewrite app_length. simpl. lia.
      * intros j Hj. rewrite (Hpr j Hj), lookup_app_l; [done|lia].
Qed.

Lemma loop_complete (s : store) pre id post fuel : list_links s (pre ++ id :: post) -> length post < fuel ->
  validate_loop fuel s (list.last pre) id = Ok tt.
Proof.
  revert pre id fuel. induction post as [|x post IH]; intros pre id [|fuel] H Hf; [simpl in *; lia| |simpl in *; lia|];
    cbn [validate_loop]; destruct (H (length pre) id (list_lookup_middle _ _ _ _ eq_refl)) as (n & En & E1 & E2);
    rewrite En, obind_Ok.
  - assert ((match list.last pre with None => Ok tt | Some last => match l_prev n with None => Panic
      | Some p => if decide (last = p) then Ok tt else Panic end end) = Ok tt) as ->.
    { rewrite last_lookup. destruct (length pre) as [|j] eqn:Hj; simpl.
      - by destruct pre.
      - rewrite (E2 j eq_refl), lookup_app_l by lia. destruct (pre !! j); [|done]. by destruct (decide _). }
    rewrite obind_Ok, E1, lookup_ge_None_2; [done|]. rewrite app_length. simpl. lia.
  - assert ((match list.last pre with None => Ok tt | Some last => match l_prev n with None => Panic
      | Some p => if decide (last = p) then Ok tt else Panic end end) = Ok tt) as ->.
    { rewrite last_lookup. destruct (length pre) as [|j] eqn:Hj; simpl.
      - by destruct pre.
      - rewrite (E2 j eq_refl), lookup_app_l by lia. destruct (pre !! j); [|done]. by destruct (decide _). }
    rewrite obind_Ok, E1.
    assert ((pre ++ id :: x :: post) !! S (length pre) = Some x) as ->.
    { rewrite lookup_app_r by lia. by replace (S (length pre) - length pre) with 1 by lia. }
    rewrite <- (last_snoc id pre). apply IH; [by rewrite <- app_assoc|]. simpl in Hf. lia.
Qed.

Lemma validate_iff (T : tree K V A) f : first_leaf T = Ok f ->
  (validate T = Ok tt <-> exists ids, list_links (t_store T) (f :: ids)).
Proof.
  intros Ef. unfold validate. rewrite Ef, obind_Ok. split.
  - intros Hv. apply (loop_sound _ _ [] f) in Hv; [by destruct Hv as [ids H]; exists ids|..].
    + intros i x. simpl. by rewrite lookup_nil.
    + by intros i x Hi.
  - intros [ids H]. apply (loop_complete _ [] f ids); [done|].
    assert (length (f :: ids) <= length (leaves (t_store T))); [|simpl in *; lia].
    apply live_length; [by eapply links_nodup|]. intros id Hin. apply elem_of_list_lookup in Hin as [i Hi].
    destruct (H _ _ Hi) as (n & E & _). by exists n.
Qed.
End ValidateProof.

Section ValidateInv.
Context {K V A : Type} {KO : KeyOps K} {PF : Profile} {OM : OrdMode} {OI : OrdIf K} {AO : AugOps K V A}.

Lemma linked_links (s : store K V A) p segs : linked (leaves s) p segs None ->
  forall i id, map fst segs !! i = Some id -> exists n, get_leaf s id = Ok n /\
    l_next n = map fst segs !! S i /\ l_prev n = match i with 0 => p | S j => map fst segs !! j end.
Proof.
  revert p. induction segs as [|[x kvs] segs IH]; intros p; [done|]. cbn [linked]. intros [E H] [|i] id Hi; simpl in *.
  - injection Hi as <-. eexists. unfold get_leaf. rewrite E. split; [done|]. split; [|done].
    by destruct segs as [|[y k] segs].
  - destruct (IH _ H _ _ Hi) as (n & E1 & E2 & E3). exists n. split; [done|]. split; [done|]. by destruct i.
Qed.

Lemma validate_inv rl ri SYNC (T : tree K V A) h t : 1 <= rl -> InvAt rl ri SYNC T h t -> validate T = Ok tt.
Proof.
  intros Hrl HI. destruct (first_leaf_ok rl ri SYNC Hrl T h t HI) as (f & kvs & rest & Es & Ef).
  apply (validate_iff T f Ef). exists (map fst rest). intros i id Hi.
  pose proof (lrep_linked _ _ (inv_lrep _ _ _ _ _ _ HI)) as Hl.
  change (f :: map fst rest) with (map fst ((f, kvs) :: rest)) in *. rewrite <- Es in *.
  destruct (linked_links _ _ _ Hl _ _ Hi) as (n & E1 & E2 & E3). exists n. split; [done|]. split; [done|]. by intros j ->.
Qed.
End ValidateInv.

Section ValidateTop.
Context {K V A : Type} {KO : KeyOps K} {PF : Profile} {AO : AugOps K V A}.

Lemma validate_top {OL : OrdLaws K} b (T : tree K V A) l : reachable b T l -> validate T = Ok tt.
Proof.
  intros Hr. destruct (reachable_any False b T l Hr) as (ri & h & t & Hlow & Hri & HI & _); [done|].
  apply (validate_inv (low b) ri False T h t); [lia|done].
Qed.

Lemma validate_any b (T : tree K V A) l : any_reachable b T l -> validate T = Ok tt.
Proof.
  intros Hr. destruct (any_reachable_inv b T l Hr) as (ri & h & t & Hlow & HI & _).
  by apply (validate_inv (OM:=om_false) (low b) ri False T h t).
Qed.
End ValidateTop.
