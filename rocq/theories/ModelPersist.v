(** * Saving, loading and resuming.

    Models rbfopt_algorithm.py [save_to_file] 692-719, [load_from_file] 721-750,
    [set_output_stream] 462-474, the beginning of [optimize] 779-780 ([print_init_line] 476-496
    flushes the output stream), the calls of [save_to_file] 1186-1188, and the clock of
    [optimize_serial] 828, 857, 1191.

    Definitions only.  The serializer is an argument.  Simplifications: the attributes of the object
    are those of [ModelAlg] plus the user's black box, the elapsed time, the generator state stored by
    [save_to_file] and the output stream; the file system is a map from names to contents, opening for
    writing truncates, and the bytes of [pickle.dump] arrive in some sequence of chunks. *)
From Verif Require Export ModelAlg.
From Coq Require Import String.
Open Scope Z_scope.

Definition byte := nat.
(** [np.random.get_state()]: the state of numpy's global generator. *)
Definition rng := list Z.
(** Output streams; 0 is [sys.stdout]. *)
Definition stream := nat.
Definition stdout : stream := 0%nat.

Record obj := mkObj {
  o_cfg : cfg;                 (* settings, l_settings, bounds, types: fixed data *)
  o_bb : list Z;               (* the user's black-box object, with its internal state *)
  o_T : tabs; o_I : incs; o_C : ctrs; o_R : refs;
  o_elapsed : Q;               (* elapsed_time *)
  o_random : option rng;       (* random_state: absent before the first save *)
  o_stream : option stream }.  (* output_stream; None while erased *)

Definition set_random (r : rng) (o : obj) : obj :=
  mkObj (o_cfg o) (o_bb o) (o_T o) (o_I o) (o_C o) (o_R o) (o_elapsed o) (Some r) (o_stream o).
Definition set_stream (x : option stream) (o : obj) : obj :=
  mkObj (o_cfg o) (o_bb o) (o_T o) (o_I o) (o_C o) (o_R o) (o_elapsed o) (o_random o) x.

(** The process: the global generator and the disk. *)
Record world := mkWorld { w_rng : rng; w_disk : string -> option (list byte) }.
Definition write (f : string) (b : list byte) (w : world) : world :=
  mkWorld (w_rng w) (fun g => if String.eqb f g then Some b else w_disk w g).

(** [pickle.dump] ([None]: it raises) and [pickle.load] ([None]: it raises). *)
Record pickle := mkPickle { dump : obj -> option (list byte); undump : list byte -> option obj }.

(** ** Saving *)
(** What is dumped: 708-711. *)
Definition to_dump (o : obj) (w : world) : obj := set_stream None (set_random (w_rng w) o).
(** The states of the process during a save whose output arrives in [chunks]: before, after 708, after
    711, after the open (713), after each write, after the last statement (716). *)
Fixpoint growing (f : string) (done : list byte) (chunks : list (list byte)) (w : world) : list world :=
  match chunks with
  | [] => []
  | ch :: r => write f (done ++ ch) w :: growing f (done ++ ch) r w
  end.
Definition save_states (f : string) (chunks : list (list byte)) (o : obj) (w : world) : list (obj * world) :=
  [(o, w); (set_random (w_rng w) o, w); (to_dump o w, w); (to_dump o w, write f [] w)] ++
  map (fun w' => (to_dump o w, w')) (growing f [] chunks w) ++
  [(set_random (w_rng w) o, write f (List.concat chunks) w)].
(** A completed save: the object afterwards and the world, or [None] if [pickle.dump] raised. *)
Definition save (pk : pickle) (f : string) (o : obj) (w : world) : option (obj * world) :=
  match dump pk (to_dump o w) with
  | Some b => Some (set_stream (o_stream o) (to_dump o w), write f b w)
  | None => None
  end.
(** The state after [save_to_file] raised: before the file was opened ([None]) or after it was opened
    and some bytes were written; 716 is not reached. *)
Definition failed_save (f : string) (written : option (list byte)) (o : obj) (w : world) : obj * world :=
  (to_dump o w, match written with None => w | Some b => write f b w end).

(** ** Loading, 742-749 *)
Definition load (pk : pickle) (f : string) (w : world) : option (obj * world) :=
  match w_disk w f with
  | None => None                                 (* assert os.path.isfile *)
  | Some b =>
      match undump pk b with
      | None => None
      | Some a =>
          match o_random a with
          | None => None                         (* AttributeError *)
          | Some r => Some (set_stream (Some stdout) a, mkWorld r (w_disk w))
          end
      end
  end.

(** ** Running *)
(** Everything the main loop obtains from outside (samples, proposals, black-box answers, ...) is a
    function of the generator, the black box and the attributes. *)
Definition environment := rng -> list Z -> tabs -> incs -> ctrs -> refs -> inp * rng * list Z.
Record proc := mkProc { p_rng : rng; p_bb : list Z; p_res : run_result }.
(** [m] passes of the main loop. *)
Fixpoint passes (env : environment) (c : cfg) (m : nat) (r : rng) (b : list Z) (s : st) (l : loc) : proc :=
  match m with
  | O => mkProc r b (Running s l)
  | S m' =>
      let '(i, r', b') := env r b (T s) (I s) (C s) (Rf s) in
      match pass c i s l with
      | Cont s' l' => passes env c m' r' b' s' l'
      | Stop => mkProc r b (Done s)
      | Crash e => mkProc r' b' (Failed e)
      end
  end.
(** [optimize(pause)] in serial mode, observed for at most [m] passes; [tr] is the ghost trace so far.
    [None]: AttributeError, no output stream to flush (779-780). *)
Definition optimize (env : environment) (pause : Z) (m : nat) (o : obj) (w : world) (tr : list event) : option proc :=
  match o_stream o with
  | None => None
  | Some _ =>
      let s := mkSt (o_T o) (o_I o) (o_C o) (o_R o) tr in
      let '(i0, r0, b0) := if itercount (o_C o) =? 0 then env (w_rng w) (o_bb o) (o_T o) (o_I o) (o_C o) (o_R o)
                           else let '(i, _, _) := env (w_rng w) (o_bb o) (o_T o) (o_I o) (o_C o) (o_R o) in (i, w_rng w, o_bb o) in
      Some match start_call (o_cfg o) i0 pause s with
           | Fail e => mkProc r0 b0 (Failed e)
           | Ok (s1, l1) => passes env (o_cfg o) m r0 b0 s1 l1
           end
  end.

(** ** The clock of the main loop *)
(** 828, 857: the time since the beginning of this call; [ds]: duration of each pass.  The result is the
    time spent in the call. *)
Fixpoint clocked (limit : Q) (spent : Q) (ds : list Q) : Q :=
  match ds with
  | [] => spent
  | d :: r => if Qltb spent limit then clocked limit (spent + d)%Q r else spent
  end.
(** 1191: elapsed time after a sequence of calls. *)
Definition elapsed (limit : Q) (start : Q) (calls : list (list Q)) : Q :=
  fold_left (fun t ds => (t + clocked limit 0 ds)%Q) calls start.
