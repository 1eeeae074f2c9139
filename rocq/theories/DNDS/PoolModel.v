(** Model of the object pool and its handles. Objects are named by numbers in
    the order of their construction; handle variables by numbers chosen by the
    program. *)
From Coq Require Import List Arith Bool.
Import ListNotations.

(** src/DNDS/ObjectPool.hpp 38-41: the owned object and whether [pool] is set
    (a moved-from weak pointer is empty). *)
Record handle := { ptr : option nat; hpool : bool }.

(** [pool] lists the pooled objects with the back of the vector first;
    [destroyed] records the objects whose destructor ran; [fresh] is the number
    of objects constructed so far; [alive] says whether the pool still exists. *)
Record world := {
  alive : bool;
  pool : list nat;
  handles : list (nat * handle);
  fresh : nat;
  destroyed : list nat }.

Definition world_init : world :=
  {| alive := true; pool := []; handles := []; fresh := 0; destroyed := [] |}.

Fixpoint find_handle (l : list (nat * handle)) (h : nat) : option handle :=
  match l with
  | [] => None
  | (k, x) :: l => if k =? h then Some x else find_handle l h
  end.
Fixpoint drop_handle (l : list (nat * handle)) (h : nat) : list (nat * handle) :=
  match l with
  | [] => []
  | (k, x) :: l => if k =? h then l else (k, x) :: drop_handle l h
  end.

Inductive op :=
| Get (h : nat)                 (* a new variable initialised with get() *)
| GetAlloc (h : nat)            (* with getAlloc(...) or getAllocInit(...) *)
| MoveCtor (h src : nat)        (* a new variable move-constructed from src *)
| MoveAssign (h src : nat)      (* an existing variable move-assigned from src *)
| Destroy (h : nat)             (* the variable goes out of scope *)
| Resize (n : nat)              (* resize or resizeInit *)
| DropPool.                     (* the pool object is destroyed *)

(** What the pool object gives out: lines 97-106 ([alloc] false) and 109-132
    ([alloc] true); returns the pointer, the pool and the counter. *)
Definition take (alloc : bool) (w : world) : option nat * list nat * nat :=
  match pool w with
  | x :: p => (Some x, p, fresh w)
  | [] => if alloc then (Some (fresh w), [], S (fresh w)) else (None, [], fresh w)
  end.

Definition ptr_list (o : option nat) : list nat := match o with Some x => [x] | None => [] end.

(** [None]: not a C++ program (a variable used before construction or twice
    constructed, self move, or a call on a destroyed pool). *)
Definition step (w : world) (o : op) : option world :=
  match o with
  | Get h | GetAlloc h =>
      match alive w, find_handle (handles w) h with
      | true, None =>
          let '(x, p, f) := take (match o with GetAlloc _ => true | _ => false end) w in
          Some {| alive := true; pool := p;
                  handles := (h, {| ptr := x; hpool := true |}) :: handles w;
                  fresh := f; destroyed := destroyed w |}
      | _, _ => None
      end
  | MoveCtor h src =>
      (* ObjectPool.hpp 50-54 *)
      match find_handle (handles w) h, find_handle (handles w) src with
      | None, Some x =>
          Some {| alive := alive w; pool := pool w;
                  handles := (h, x) :: (src, {| ptr := None; hpool := false |})
                                    :: drop_handle (handles w) src;
                  fresh := fresh w; destroyed := destroyed w |}
      | _, _ => None
      end
  | MoveAssign h src =>
      (* ObjectPool.hpp 55-59: unique_ptr move assignment destroys the object
         owned by the left side *)
      if h =? src then None else
      match find_handle (handles w) h, find_handle (handles w) src with
      | Some y, Some x =>
          Some {| alive := alive w; pool := pool w;
                  handles := (h, x) :: (src, {| ptr := None; hpool := false |})
                                    :: drop_handle (drop_handle (handles w) h) src;
                  fresh := fresh w; destroyed := ptr_list (ptr y) ++ destroyed w |}
      | _, _ => None
      end
  | Destroy h =>
      (* ObjectPool.hpp 64-69 *)
      match find_handle (handles w) h with
      | Some x =>
          let back := alive w && hpool x in
          Some {| alive := alive w;
                  pool := if back then ptr_list (ptr x) ++ pool w else pool w;
                  handles := drop_handle (handles w) h;
                  fresh := fresh w;
                  destroyed := if back then destroyed w else ptr_list (ptr x) ++ destroyed w |}
      | None => None
      end
  | Resize n =>
      (* ObjectPool.hpp 72-95: clear, then construct until the size is n *)
      if alive w then
        Some {| alive := true; pool := rev (seq (fresh w) n); handles := handles w;
                fresh := fresh w + n; destroyed := pool w ++ destroyed w |}
      else None
  | DropPool =>
      if alive w then
        Some {| alive := false; pool := []; handles := handles w; fresh := fresh w;
                destroyed := pool w ++ destroyed w |}
      else None
  end.

Fixpoint run (w : world) (l : list op) : option world :=
  match l with
  | [] => Some w
  | o :: l => match step w o with Some w => run w l | None => None end
  end.
