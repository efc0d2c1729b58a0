(** Model of the process-wide registries: serialization handlers (src/protobuf/qabstractprotobufserializer.cpp),
    registration functions (qtprotobuf.cpp) and serializer plugins (qprotobufserializerregistry.cpp). *)

From Coq Require Import ZArith List Bool Arith.
From Verif Require Import Base.
Import ListNotations.
Open Scope nat_scope.

(** ** HandlersRegistry, qabstractprotobufserializer.cpp 36-81, used by any number of threads *)

(** MaximumSimultaniousThreads, line 38. *)
Definition max_threads : nat := 64.

(** Calls of the two functions.  Metatype numbers and handlers are numbers; handler 0 is [empty] of line 80. *)
Inductive op : Type := Register (t h : nat) | Find (t : nat).

(** The next action of a thread.  registerHandler, lines 49-54: the lock and the releaser are objects of the
    function, destroyed in reverse order at its end.  The access to the map of line 53 has a beginning and an
    end.  findHandler, lines 56-67: the lock is released in line 61, the map is accessed in lines 62-65. *)
Inductive pc : Type :=
| Idle
| RLock (t h : nat) | RAcquire (t h : nat) | RBegin (t h : nat) | RWriting (t h : nat) | RRelease (t h : nat) | RUnlock (t h : nat)
| FLock (t : nat) | FAcquire (t : nat) | FUnlock (t : nat) | FBegin (t : nat) | FReading (t : nat) | FRelease (t r : nat).

Record thread : Type := mkThread { t_pc : pc; t_ops : list op }.

(** What happens, in order. *)
Inductive act : Type :=
| Call (i : nat) (o : op)           (* thread i calls *)
| Written (i : nat) (t h : nat)     (* the assignment of line 53 is done *)
| Got (i : nat) (t r : nat)         (* the access of lines 62-65 is done *)
| Return (i : nat) (o : op) (r : nat).   (* the call returns, r = 0 for registerHandler *)

(** m_writeLock with its owner, the available resources of m_readLock, m_registry. *)
Record config : Type := mkConfig {
  c_mutex : option nat;
  c_sem : nat;
  c_map : nat -> nat;
  c_threads : list thread;
  c_trace : list act
}.

Definition start (progs : list (list op)) : config :=
  mkConfig None max_threads (fun _ => 0) (map (mkThread Idle) progs) [].

Fixpoint put {A : Type} (i : nat) (x : A) (l : list A) : list A :=
  match l, i with
  | [], _ => []
  | _ :: l', O => x :: l'
  | y :: l', S i' => y :: put i' x l'
  end.

(** Thread [i] takes its next step; [None] if it is blocked or has ended.  QMutex is not recursive; acquire(n)
    waits for n available resources. *)
Definition advance (i : nat) (c : config) : option config :=
  match nth_error (c_threads c) i with
  | None => None
  | Some th =>
      let go p m s f tr ops := Some (mkConfig m s f (put i (mkThread p ops) (c_threads c)) (c_trace c ++ tr)) in
      let ops := t_ops th in
      match t_pc th with
      | Idle =>
          match ops with
          | [] => None
          | Register t h :: ops' => go (RLock t h) (c_mutex c) (c_sem c) (c_map c) [Call i (Register t h)] ops'
          | Find t :: ops' => go (FLock t) (c_mutex c) (c_sem c) (c_map c) [Call i (Find t)] ops'
          end
      | RLock t h => match c_mutex c with
                     | None => go (RAcquire t h) (Some i) (c_sem c) (c_map c) [] ops
                     | Some _ => None
                     end
      | RAcquire t h => if max_threads <=? c_sem c
                        then go (RBegin t h) (c_mutex c) (c_sem c - max_threads) (c_map c) [] ops else None
      | RBegin t h => go (RWriting t h) (c_mutex c) (c_sem c) (c_map c) [] ops
      | RWriting t h => go (RRelease t h) (c_mutex c) (c_sem c) (fun x => if x =? t then h else c_map c x) [Written i t h] ops
      | RRelease t h => go (RUnlock t h) (c_mutex c) (c_sem c + max_threads) (c_map c) [] ops
      | RUnlock t h => go Idle None (c_sem c) (c_map c) [Return i (Register t h) 0] ops
      | FLock t => match c_mutex c with
                   | None => go (FAcquire t) (Some i) (c_sem c) (c_map c) [] ops
                   | Some _ => None
                   end
      | FAcquire t => if 1 <=? c_sem c then go (FUnlock t) (c_mutex c) (c_sem c - 1) (c_map c) [] ops else None
      | FUnlock t => go (FBegin t) None (c_sem c) (c_map c) [] ops
      | FBegin t => go (FReading t) (c_mutex c) (c_sem c) (c_map c) [] ops
      | FReading t => go (FRelease t (c_map c t)) (c_mutex c) (c_sem c) (c_map c) [Got i t (c_map c t)] ops
      | FRelease t r => go Idle (c_mutex c) (c_sem c + 1) (c_map c) [Return i (Find t) r] ops
      end
  end.

(** A schedule names the thread that takes the next step. *)
Fixpoint execute (c : config) (sched : list nat) : option config :=
  match sched with
  | [] => Some c
  | i :: sched' => match advance i c with Some c' => execute c' sched' | None => None end
  end.

(** ** qRegisterProtobufTypes, qtprotobuf.cpp 57-103 *)

(** What a registration function does, as far as it concerns registration: nothing, register another function
    (ProtoTypeRegistrar, qtprotobuftypes.h 272-276), call qRegisterProtobufTypes. *)
Inductive action : Type := Add (f : nat) | Reenter.

(** The static flag of line 63, the list of line 58, and the calls made in line 101.  The basic types of lines
    68-98 are registered at the same time as the flag is set and are not listed. *)
Record types : Type := mkTypes { y_done : bool; y_list : list nat; y_ran : list nat }.

Definition no_types : types := mkTypes false [] [].

Section Functions.
Variable body : nat -> list action.

(** [fuel] bounds the number of steps: a function can register functions forever. *)
Fixpoint register_types (fuel : nat) (s : types) : option types :=
  match fuel with
  | O => None
  | S n => if y_done s then Some s else register_loop n 0 (mkTypes true (y_list s) (y_ran s))
  end
(** The loop of lines 100-102; appending to a std::list keeps the iterators valid. *)
with register_loop (fuel : nat) (i : nat) (s : types) : option types :=
  match fuel with
  | O => None
  | S n =>
      match nth_error (y_list s) i with
      | None => Some s
      | Some f =>
          match run_body n (body f) (mkTypes (y_done s) (y_list s) (y_ran s ++ [f])) with
          | None => None
          | Some s' => register_loop n (S i) s'
          end
      end
  end
with run_body (fuel : nat) (l : list action) (s : types) : option types :=
  match fuel with
  | O => None
  | S n =>
      match l with
      | [] => Some s
      | Add f :: l' => run_body n l' (mkTypes (y_done s) (y_list s ++ [f]) (y_ran s))
      | Reenter :: l' => match register_types n s with None => None | Some s' => run_body n l' s' end
      end
  end.

(** The program: static initializers of libraries and calls of the function, in any order. *)
Inductive top : Type := Library (f : nat) | CallTypes.

Fixpoint program (fuel : nat) (l : list top) (s : types) : option types :=
  match l with
  | [] => Some s
  | Library f :: l' => program fuel l' (mkTypes (y_done s) (y_list s ++ [f]) (y_ran s))
  | CallTypes :: l' => match register_types fuel s with None => None | Some s' => program fuel l' s' end
  end.
End Functions.

(** Two threads inside qRegisterProtobufTypes: the flag is read, then set, then the loop runs one function per
    step.  [p_step] 0: before line 64; 1: flag read as false; n+2: n functions run. *)
Record pair_state : Type := mkPair { p_flag : bool; p_step : nat -> nat; p_done : nat -> bool; p_runs : list (nat * nat) }.

Definition pair_start : pair_state := mkPair false (fun _ => 0) (fun _ => false) [].

Definition set_fun {A} (f : nat -> A) (i : nat) (x : A) : nat -> A := fun j => if j =? i then x else f j.

Definition pair_advance (fns : list nat) (i : nat) (s : pair_state) : pair_state :=
  if p_done s i then s
  else match p_step s i with
       | O => if p_flag s then mkPair (p_flag s) (p_step s) (set_fun (p_done s) i true) (p_runs s)
              else mkPair (p_flag s) (set_fun (p_step s) i 1) (p_done s) (p_runs s)
       | S O => mkPair true (set_fun (p_step s) i 2) (p_done s) (p_runs s)
       | S (S n) => match nth_error fns n with
                    | Some f => mkPair (p_flag s) (set_fun (p_step s) i (3 + n)) (p_done s) (p_runs s ++ [(i, f)])
                    | None => mkPair (p_flag s) (p_step s) (set_fun (p_done s) i true) (p_runs s)
                    end
       end.

Fixpoint pair_run (fns : list nat) (sched : list nat) (s : pair_state) : pair_state :=
  match sched with [] => s | i :: sched' => pair_run fns sched' (pair_advance fns i s) end.

(** ** QProtobufSerializerRegistry, qprotobufserializerregistry.cpp 61-255 *)

(** Names (plugins, serializers) are numbers; serializer objects too, the built-in ones are [BuiltIn]. *)
Inductive serializer : Type := BuiltIn (name : nat) | FromPlugin (object : nat) | NullSerializer.
Definition empty_name : nat := 0.
Definition default_name : nat := 1.
Definition protobuf_name : nat := 2.
Definition json_name : nat := 3.

(** The meta data of a plugin, lines 91-96: its name, the list of types, version, rating, protobuf version. *)
Record meta : Type := mkMeta { m_name : nat; m_types : list nat; m_version : Z; m_rating : Z; m_protobuf : Z }.

(** What is found at a path: the meta data if the file is a plugin; what serializer() of its instance returns, if
    it can be loaded. *)
Record plugin_file : Type := mkFile { f_meta : option meta; f_instance : option (nat -> serializer) }.

(** QProtobufSerializerRegistryPrivateRecord, lines 63-127; later entries of the map replace earlier ones. *)
Record record : Type := mkRecord { r_serializers : list (nat * serializer); r_meta : option meta }.

Fixpoint lookup {A : Type} (n : nat) (l : list (nat * A)) : option A :=
  match l with
  | [] => None
  | (m, x) :: l' => if n =? m then Some x else lookup n l'
  end.

(** createDefaultImpl, lines 75-83. *)
Definition default_record : record :=
  mkRecord [(protobuf_name, BuiltIn protobuf_name); (json_name, BuiltIn json_name)] None.

(** m_plugins; operator[] of an absent name inserts a null pointer. *)
Definition registry : Type := list (nat * option record).

(** The constructor, lines 134-145. *)
Definition new_registry : registry := [(default_name, Some default_record)].

(** loadPluginMetadata and loadPlugin of the record, lines 85-108. *)
Definition load_record (f : plugin_file) : record :=
  match f_meta f, f_instance f with
  | Some m, Some inst =>
      mkRecord (fold_left (fun l t => (t, inst t) :: l) (m_types m) []) (Some m)
  | m, _ => mkRecord [] m
  end.

(** loadPlugin, lines 147-164; the assertion is off in release builds. *)
Definition loadPlugin (f : plugin_file) (r : registry) : nat * registry :=
  let name := match f_meta f with Some m => m_name m | None => empty_name end in
  match lookup name r with
  | None => (name, (name, Some (load_record f)) :: r)
  | Some _ => (name, r)
  end.

(** getSerializer, lines 192-195; at() throws. *)
Definition getSerializer_from (id plugin : nat) (r : registry) : res serializer :=
  match lookup plugin r with
  | None => UB NullDeref
  | Some None => UB NullDeref
  | Some (Some rec) => match lookup id (r_serializers rec) with Some s => Ok s | None => Throw OutOfRange end
  end.

(** getSerializer, lines 187-190. *)
Definition getSerializer (id : nat) (r : registry) : res serializer := getSerializer_from id default_name r.

(** pluginVersion, pluginSerializers, pluginProtobufVersion, pluginRating, lines 203-255. *)
Definition from_meta {A : Type} (d : A) (f : meta -> A) (plugin : nat) (r : registry) : res A :=
  match lookup plugin r with
  | None => Ok d
  | Some None => UB NullDeref
  | Some (Some rec) => match r_meta rec with None => Ok d | Some m => Ok (f m) end
  end.
Definition pluginVersion : nat -> registry -> res Z := from_meta 0%Z m_version.
Definition pluginProtobufVersion : nat -> registry -> res Z := from_meta 0%Z m_protobuf.
Definition pluginRating : nat -> registry -> res Z := from_meta 0%Z m_rating.
Definition pluginSerializers : nat -> registry -> res (list nat) :=
  from_meta [] (fun m => filter (fun t => negb (t =? empty_name)) (m_types m)).

(** Histories: loads of plugins from whatever is found at the path. *)
Definition load_all (l : list plugin_file) : registry := fold_left (fun r f => snd (loadPlugin f r)) l new_registry.
