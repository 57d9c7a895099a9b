(** Arrays [[MaybeUninit<T>; N]] and the unsafe slice helpers. *)
From stdpp Require Import list.
From Verif Require Import Base.

(** [[MaybeUninit<T>; N]]: [None] is an uninitialised slot.  Moving a value out
    of a slot leaves [None] behind (Rust leaves the old bytes, reading which
    again would duplicate ownership). *)
Notation slots T := (list (option T)).

Section Slots.
Context {T : Type} {PF : Profile}.
Implicit Types s : slots T.

(** [MaybeUninit::<[MaybeUninit<T>; N]>::uninit().assume_init()], the content of
    freshly allocated nodes (leaf_node.rs:58-68, inner_node.rs:113-120). *)
Definition slots_empty (n : nat) : slots T := repeat None n.

(** [get_unchecked(i).assume_init_ref()] (leaf_node.rs:170-177, inner_node.rs:554-566) *)
Definition slot_get (s : slots T) (i : nat) : outcome T :=
  match s !! i with
  | Some (Some x) => Ok x
  | _ => UB
  end.

(** [mem::replace(get_unchecked_mut(i), uninit())] followed by
    [assume_init_read] (leaf_node.rs:491-501, inner_node.rs:449-470) *)
Definition slot_take (s : slots T) (i : nat) : outcome (T * slots T) :=
  match s !! i with
  | Some (Some x) => Ok (x, <[i := None]> s)
  | _ => UB
  end.

(** No slot holds a value. *)
Definition slots_vacant (s : slots T) : bool :=
  forallb (fun o => match o with None => true | Some _ => false end) s.

(** Go on if these slots, which are about to be overwritten or given up, hold no value. *)
Definition if_vacant {X} (s : slots T) (e : outcome X) : outcome X :=
  if slots_vacant s then e else Leak.

(** [*get_unchecked_mut(i) = MaybeUninit::new(x)]; [MaybeUninit] never drops what
    it holds, so a value already there would leak *)
Definition slot_put (s : slots T) (i : nat) (x : T) : outcome (slots T) :=
  match s !! i with
  | Some None => Ok (<[i := Some x]> s)
  | Some (Some _) => Leak
  | None => UB
  end.

(** [mem::replace(get_unchecked_mut(i), MaybeUninit::new(x)).assume_init_read()] *)
Definition slot_replace (s : slots T) (i : nat) (x : T) : outcome (T * slots T) :=
  match s !! i with
  | Some (Some y) => Ok (y, <[i := Some x]> s)
  | _ => UB
  end.

(** [&*(get_unchecked(..n) as *const [MaybeUninit<T>] as *const [T])]: all
    slots must be initialised (leaf_node.rs:527-553, inner_node.rs:165-192) *)
Fixpoint slots_all (s : slots T) : outcome (list T) :=
  match s with
  | [] => Ok []
  | Some x :: s' => let! l := slots_all s' in Ok (x :: l)
  | None :: _ => UB
  end.

Definition slots_prefix (s : slots T) (n : nat) : outcome (list T) :=
  if decide (n <= length s) then slots_all (take n s) else UB.

(** slice_utils.rs:10-20 [slice_insert(area_mut(..n), idx, val)]; the last slot of
    the area is overwritten.  Past a [debug_assert!] that is compiled out, [slice_ptr.add(idx)]
    leaves the slice *)
Definition slice_insert (s : slots T) (n idx : nat) (x : T) : outcome (slots T) :=
  if decide (n <= length s) then
    if decide (idx < n) then
      if_vacant (drop (n - 1) (take n s))
        (Ok (take idx s ++ Some x :: take (n - idx - 1) (drop idx s) ++ drop n s))
    else if dev then Panic else UB
  else UB.

(** slice_utils.rs:27-36 [slice_remove(area_mut(..n), idx)] *)
Definition slice_remove (s : slots T) (n idx : nat) : outcome (T * slots T) :=
  if decide (n <= length s) then
    if decide (idx < n) then
      match s !! idx with
      | Some (Some x) =>
          Ok (x, take idx s ++ take (n - idx - 1) (drop (S idx) s) ++ None :: drop n s)
      | _ => UB
      end
    else if dev then Panic else UB
  else UB.

(** slice_utils.rs:41-46 [move_to_slice(src.area_mut(a..b), dst.area_mut(c..d))];
    out-of-bounds or decreasing ranges are UB ([get_unchecked_mut]), different
    lengths fail the [assert!]. *)
Definition move_to_slice (src : slots T) (a b : nat) (dst : slots T) (c d : nat)
  : outcome (slots T * slots T) :=
  if decide (a <= b /\ b <= length src /\ c <= d /\ d <= length dst) then
    if decide (b - a = d - c) then
      if_vacant (take (d - c) (drop c dst))
        (Ok (take a src ++ repeat None (b - a) ++ drop b src,
             take c dst ++ take (b - a) (drop a src) ++ drop d dst))
    else Panic
  else UB.

(** [assume_init_drop] of every slot in [..n] (inner_node.rs:25-38); a type
    without drop glue ([needs = false]) makes it a no-op. *)
Definition drop_prefix (needs : bool) (s : slots T) (n : nat) : outcome unit :=
  if decide (n <= length s) then
    if needs then let! _ := slots_all (take n s) in Ok tt else Ok tt
  else UB.

End Slots.
