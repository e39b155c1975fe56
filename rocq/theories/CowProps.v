(** Property theorems about CopyOnWrite. *)
From Coq Require Import List Arith.
From Verif Require Import CowModel CowSpec CowProofs.
Import ListNotations.

(** C04: for every number of handles and every history of copies, moves,
    emplacements, resets and mutations, each handle reads exactly the value a
    private optional value would have; the history aborts (CHECK failure) exactly
    when the private history would mutate an absent value. *)
Theorem C04_copy_on_write_is_private : forall (T : Type) n (os : list (cow_op T)),
  Forall (op_in_range n) os ->
  match cow_run (cow_init n) os with
  | Some w => exists p, priv_run n (fun _ => None) os p /\
      (forall h, cow_value w h = p h) /\
      (forall h, cow_has_value w h = match p h with Some _ => true | None => false end)
  | None => ~ exists p, priv_run n (fun _ => None) os p
  end.
Proof. exact @cow_refines_private. Qed.
Print Assumptions C04_copy_on_write_is_private.

(** C04: IsShared() is true exactly when another handle holds the same object;
    an object is alive exactly while some handle refers to it (no leak, no
    dangling pointer). *)
Theorem C04_is_shared_exact : forall (T : Type) n (os : list (cow_op T)) w,
  Forall (op_in_range n) os ->
  cow_run (cow_init n) os = Some w ->
  (forall h, cow_is_shared w h = true <->
     exists k, k <> h /\ ptr w k <> None /\ ptr w k = ptr w h) /\
  (forall a, cell w a <> None <-> exists h, h < n /\ ptr w h = Some a).
Proof. exact @cow_shared_exact. Qed.
Print Assumptions C04_is_shared_exact.

(** A non-trivial history: three handles, sharing, a write after sharing, a
    move and a self-move; then a history that aborts. *)
Definition C04_history : list (cow_op nat) :=
  [OpEmplace 0 7; OpCopy 1 0; OpCopy 2 1; OpMutate 1 (Nat.add 5); OpMove 0 2; OpMove 0 0;
   OpMutate 0 (Nat.add 1)].
Example C04_history_in_range : Forall (op_in_range 3) C04_history.
Proof. repeat constructor. Qed.
Example C04_history_result :
  option_map (fun w => map (cow_value w) [0; 1; 2]) (cow_run (cow_init 3) C04_history)
  = Some [Some 8; Some 12; None].
Proof. reflexivity. Qed.
Example C04_shared_example :
  option_map (fun w => map (cow_is_shared w) [0; 1; 2])
    (cow_run (cow_init 3) [OpEmplace 0 7; OpCopy 1 0; OpEmplace 2 4]) = Some [true; true; false].
Proof. reflexivity. Qed.
Example C04_abort_example :
  cow_run (cow_init 2) [OpEmplace 0 7; OpMove 1 0; OpMutate 0 (Nat.add 1)] = None.
Proof. reflexivity. Qed.
