(** [DescribeType::type_descriptor] with the [std] feature: threads racing on the cache.
    type_info/mod.rs:44-77.

    A thread is a small program counter; one step of one thread is one atomic operation on the
    shared memory (or the whole of [Self::build], during which the thread holds the write lock and
    other threads may take steps).  Steps are interleaved in any order, i.e. memory is sequentially
    consistent: the only unlocked access is the pointer inside the [OnceBox], loaded with
    [Acquire] and exchanged with [AcqRel].  A thread makes any number of calls, one at a time.
    - [TypeId::of::<T>()] is the type itself, and the [HashMap] a finite map from types.
    - Blocking is the absence of a step: which waiting thread gets a lock is not specified.
    - Addresses of boxes are numbers; a freed address may be allocated again.
    - [Self::build] may also panic: metadata expressions and hand-written [DescribeType]
      implementations are user code.  It does not call [type_descriptor]. *)
From Coq Require Import String List ZArith Bool PeanoNat.
From Verif Require Import Base Scalar Value Types Obj View TypeGraph.
Import ListNotations.

(** [RwLock<HashMap<TypeId, &'static TypeDescriptor>>] *)
Record lock := mkLock {
  l_readers : nat;
  l_writer : bool;
  l_poisoned : bool;
  l_map : list (ty * nat)
}.
(** mod.rs:59-63: [RwLock::new(HashMap::with_hasher(..))] *)
Definition new_lock : lock := mkLock 0 false false [].

(** Where a thread is in [type_descriptor::<t>()]; [a]: the address of the lock, [d]: of the
    descriptor. *)
Inductive pc :=
| Idle
| Load (t : ty)                    (* [INFO.get_or_init(..)]: load the pointer *)
| Alloc (t : ty)                   (* it was null: make a box *)
| Swap (t : ty) (a : nat)          (* [compare_exchange(null, a)] *)
| WantRead (t : ty) (a : nat)      (* [lock.read()] *)
| Reading (t : ty) (a : nat)       (* [.get(&type_id)], read guard held *)
| Hit (t : ty) (a d : nat)         (* [return Cow::Borrowed(info)], read guard held *)
| Miss (t : ty) (a : nat)          (* end of the [if let]: drop the read guard *)
| WantWrite (t : ty) (a : nat)     (* [lock.write()] *)
| Writing (t : ty) (a : nat)       (* [map.entry(type_id)], write guard held *)
| Building (t : ty) (a : nat)      (* inside [or_insert_with(..)], write guard held *)
| Done (t : ty) (a d : nat).       (* return, write guard held *)

(** [s_info]: the pointer in [INFO] (null: [None]); [s_locks], [s_descs]: the heap. *)
Record state := mkState {
  s_threads : list pc;
  s_info : option nat;
  s_locks : nat -> option lock;
  s_descs : nat -> option (graph * Z)
}.

(** [n] threads, before any call. *)
Definition start (n : nat) : state := mkState (repeat Idle n) None (fun _ => None) (fun _ => None).

(** What can be seen of a step. *)
Inductive event :=
| ECall (i : nat) (t : ty)          (* thread [i] calls [type_descriptor::<t>()] *)
| EReturn (i : nat) (t : ty) (d : nat)
| EPanic (i : nat) (t : ty)
| EBuild (i : nat) (t : ty)         (* [<t>::build] is entered *)
| ETau.

(** What is not determined by the code: which type is called for; the address an allocation
    returns; how long [build] runs; whether user code panics. *)
Inductive choice := Call (t : ty) | Go (addr fuel : nat) | Fail.

Definition put {A} (f : nat -> A) (a : nat) (x : A) : nat -> A := fun b => if Nat.eqb b a then x else f b.
Definition map_find (m : list (ty * nat)) (t : ty) : option nat :=
  option_map snd (find (fun e => ty_eqb (fst e) t) m).

Section Steps.
Variable G : genv.

Definition set_thread (s : state) (i : nat) (p : pc) : state :=
  mkState (set_nth i p (s_threads s)) (s_info s) (s_locks s) (s_descs s).
Definition set_lock (s : state) (a : nat) (l : option lock) : state :=
  mkState (s_threads s) (s_info s) (put (s_locks s) a l) (s_descs s).

(** Lock operations: mod.rs:64 ([read]), 68 ([write]), and the guards going out of scope. *)
Definition read_lock (l : lock) : option lock :=
  if l_writer l then None else Some (mkLock (S (l_readers l)) false (l_poisoned l) (l_map l)).
Definition read_unlock (l : lock) : lock := mkLock (pred (l_readers l)) (l_writer l) (l_poisoned l) (l_map l).
Definition write_lock (l : lock) : option lock :=
  if l_writer l then None else
  match l_readers l with O => Some (mkLock 0 true (l_poisoned l) (l_map l)) | S _ => None end.
Definition write_unlock (panicking : bool) (l : lock) : lock :=
  mkLock (l_readers l) false (panicking || l_poisoned l) (l_map l).
Definition insert (t : ty) (d : nat) (l : lock) : lock :=
  mkLock (l_readers l) (l_writer l) (l_poisoned l) ((t, d) :: l_map l).

Definition is_free {A} (h : nat -> option A) (a : nat) : bool :=
  match h a with None => true | Some _ => false end.

(** One step of thread [i]. [None]: the thread cannot take this step. *)
Definition step (s : state) (i : nat) (c : choice) : option (state * event) :=
  let go p := set_thread s i p in
  let with_lock a (f : lock -> option (state * event)) :=
    match s_locks s a with Some l => f l | None => None end in
  match nth_error (s_threads s) i, c with
  | Some Idle, Call t => Some (go (Load t), ECall i t)
  (* once_cell race::OnceBox::get_or_init *)
  | Some (Load t), Go _ _ =>
      match s_info s with
      | Some a => Some (go (WantRead t a), ETau)
      | None => Some (go (Alloc t), ETau)
      end
  | Some (Alloc t), Go a _ =>
      if is_free (s_locks s) a then Some (set_lock (go (Swap t a)) a (Some new_lock), ETau) else None
  | Some (Swap t a), Go _ _ =>
      match s_info s with
      | None => Some (mkState (set_nth i (WantRead t a) (s_threads s)) (Some a) (s_locks s) (s_descs s), ETau)
      | Some b => Some (set_lock (go (WantRead t b)) a None, ETau)   (* [drop] of the unused box *)
      end
  (* mod.rs:64-66 *)
  | Some (WantRead t a), Go _ _ =>
      with_lock a (fun l =>
      match read_lock l with
      | None => None
      | Some l' =>
          if l_poisoned l then Some (go Idle, EPanic i t)            (* [unwrap]; the guard is dropped *)
          else Some (set_lock (go (Reading t a)) a (Some l'), ETau)
      end)
  | Some (Reading t a), Go _ _ =>
      with_lock a (fun l =>
      match map_find (l_map l) t with
      | Some d => Some (go (Hit t a d), ETau)
      | None => Some (go (Miss t a), ETau)
      end)
  | Some (Hit t a d), Go _ _ =>
      with_lock a (fun l => Some (set_lock (go Idle) a (Some (read_unlock l)), EReturn i t d))
  | Some (Miss t a), Go _ _ =>
      with_lock a (fun l => Some (set_lock (go (WantWrite t a)) a (Some (read_unlock l)), ETau))
  (* mod.rs:68-75 *)
  | Some (WantWrite t a), Go _ _ =>
      with_lock a (fun l =>
      match write_lock l with
      | None => None
      | Some l' =>
          if l_poisoned l then Some (go Idle, EPanic i t)
          else Some (set_lock (go (Writing t a)) a (Some l'), ETau)
      end)
  | Some (Writing t a), Go _ _ =>
      with_lock a (fun l =>
      match map_find (l_map l) t with
      | Some d => Some (go (Done t a d), ETau)
      | None => Some (go (Building t a), EBuild i t)
      end)
  | Some (Building t a), Go d fuel =>
      with_lock a (fun l =>
      match descriptor G fuel t with
      | Some g =>
          if is_free (s_descs s) d
          then Some (mkState (set_nth i (Done t a d) (s_threads s)) (s_info s)
                       (put (s_locks s) a (Some (insert t d l))) (put (s_descs s) d (Some g)), ETau)
          else None
      | None => None
      end)
  | Some (Building t a), Fail =>
      with_lock a (fun l => Some (set_lock (go Idle) a (Some (write_unlock true l)), EPanic i t))
  | Some (Done t a d), Go _ _ =>
      with_lock a (fun l => Some (set_lock (go Idle) a (Some (write_unlock false l)), EReturn i t d))
  | _, _ => None
  end.

(** A schedule: which thread moves next, and how.  [None]: the schedule is impossible. *)
Fixpoint run (s : state) (sched : list (nat * choice)) : option (state * list event) :=
  match sched with
  | [] => Some (s, [])
  | (i, c) :: rest =>
      match step s i c with
      | None => None
      | Some (s', e) => match run s' rest with Some (s2, es) => Some (s2, e :: es) | None => None end
      end
  end.

End Steps.
