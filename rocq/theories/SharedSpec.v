(** What the programs of [Shared.v] may return, in terms of the stored entries
    only.  A cursor is described by its key: where it points inside the tree is a
    hint without meaning for the caller. *)
From stdpp Require Import list.
From Verif Require Import Base Spec Contents Cursor Shared.

Section SharedSpec.
Context {K V : Type} {KO : KeyOps K} {PF : Profile}.
Implicit Types (l : list (K * V)).

Definition shown (r : option (cursor K * V)) : option (K * V) := (fun cv => (c_key cv.1, cv.2)) <$> r.

Definition call_means l (c : rcall K) (x : rres K V) : Prop :=
  match c, x with
  | CNext c, XCursor r => above_is (c_key c) l (shown r)
  | CPrev c, XCursor r => below_is (c_key c) l (shown r)
  | CValue c, XVal o => lookup_is (probe_key (c_key c)) l o
  | CCursor k, XPlace c o => c_key c = k /\ lookup_is (probe_key k) l o
  | CCursorFirst, XCursor r => least_is l (shown r)
  | CCursorLast, XCursor r => greatest_is l (shown r)
  | CFirst, XEntry e => least_is l e
  | CLast, XEntry e => greatest_is l e
  | CLen, XNum n => n = length l
  | CIter, XList l' => l' = l
  | CIterRev, XList l' => l' = rev l
  | _, _ => False
  end.

(** [r] is a right result of the program on the entries [l]: every answer it got was right. *)
Inductive means {R} l : prog K V R -> R -> Prop :=
| means_ret r : means l (PRet r) r
| means_get p k o r : lookup_is p l o -> means l (k o) r -> means l (PGet p k) r
| means_call c k x r : call_means l c x -> means l (k x) r -> means l (PCall c k) r.
End SharedSpec.
