(** Model of [PTYSocketProxy] (unpythonic/net/ptyproxy.py): a thread that carries bytes between the
    master side of a pty and a socket.  The operating system, the client and the program that runs
    in the terminal are events. *)
From Verif Require Import Base.
From Coq Require Import List Bool Arith.
Import ListNotations.

Section Proxy.
Context {B : Type}.                        (* bytes *)
(** ptyproxy.py 84, 90: the buffer size, 4096 *)
Variable bufsize : nat.
(** 62-63: the callbacks, if given.  [on_sock] is what the callback writes into the master
    (as server.py 447-449 does). *)
Variable on_sock : option (list B).
Variable on_slave : bool.

(** Errors of the operating system (no code in /repo). *)
Inductive ioerror := ConnectionReset | BrokenPipe | OtherError.
(** The thread: not there (69, 108); in the loop; finished, possibly by an exception *)
Inductive ending := Returned | Died (e : ioerror) | DiedTypeError.
(** The thread of a proxy: ptyproxy.py 17-112 *)
Inductive thread := NoThread | Looping | Ended (e : ending).
(** The two callbacks: ptyproxy.py 35-65 *)
Inductive callback := SocketGone | SlaveGone.
(** What is in the two channels, what has arrived, and the attributes of the proxy: ptyproxy.py 17-112 *)
Record proxy := mkproxy {
  pty_in : list B;        (* written by the slave, not yet read from the master *)
  sock_in : list B;       (* sent by the client, not yet received *)
  to_client : list B;     (* all that the socket has taken *)
  to_slave : list B;      (* all that the master has taken *)
  client_open : bool;
  slave_open : bool;
  terminated : bool;
  running : thread;
  fds_open : bool;        (* master and slave *)
  calls : list callback
}.
(** ptyproxy.py 58-65 *)
Definition new : proxy := mkproxy [] [] [] [] true true true NoThread true [].

(** What poll reports (ptyproxy.py 81), and how the calls in 83-94 go: [size] bytes are read (at least one, at
    most what there is and fits the buffer), [taken] of them are accepted by send or write; recv or
    send may raise.  os.read and os.write are taken not to raise. *)
Inductive visit :=
| FromMaster (size taken : nat) (send_raises : option ioerror)
| FromSocket (size taken : nat) (recv_raises : option ioerror).
(** How many bytes a read of at most 4096 gives: ptyproxy.py 84, 90 *)
Definition reads (size : nat) (l : list B) : nat := Nat.min (Nat.max 1 size) (Nat.min bufsize (length l)).
(** The thread goes on or ends. *)
Definition set_running (p : proxy) (t : thread) : proxy :=
  mkproxy (pty_in p) (sock_in p) (to_client p) (to_slave p) (client_open p) (slave_open p) (terminated p) t (fds_open p) (calls p).
(** ptyproxy.py 92, 96 *)
Definition socket_disconnect (p : proxy) : proxy :=
  match on_sock with
  | None => set_running p (Ended DiedTypeError)   (* None is not callable *)
  | Some w => mkproxy (pty_in p) (sock_in p) (to_client p) (to_slave p ++ w) (client_open p) (slave_open p) (terminated p)
                (Ended Returned) (fds_open p) (calls p ++ [SocketGone])
  end.
(** ptyproxy.py 86 *)
Definition slave_disconnect (p : proxy) : proxy :=
  if on_slave then mkproxy (pty_in p) (sock_in p) (to_client p) (to_slave p) (client_open p) (slave_open p) (terminated p)
                     (Ended Returned) (fds_open p) (calls p ++ [SlaveGone])
  else set_running p (Ended DiedTypeError).
(** ptyproxy.py 95: only ConnectionResetError is caught *)
Definition io_error (p : proxy) (e : ioerror) : proxy :=
  match e with ConnectionReset => socket_disconnect p | _ => set_running p (Ended (Died e)) end.
(** ptyproxy.py 83-94; a descriptor that has nothing to say is not reported *)
Definition visit_one (p : proxy) (v : visit) : proxy :=
  match v with
  | FromMaster size taken raises =>
      match pty_in p with
      | [] => if slave_open p then p else slave_disconnect p
      | _ :: _ =>
          let n := reads size (pty_in p) in
          let request := firstn n (pty_in p) in
          let p := mkproxy (skipn n (pty_in p)) (sock_in p) (to_client p) (to_slave p) (client_open p) (slave_open p) (terminated p)
                     (running p) (fds_open p) (calls p) in
          match raises with
          | Some e => io_error p e
          | None => mkproxy (pty_in p) (sock_in p) (to_client p ++ firstn taken request) (to_slave p) (client_open p) (slave_open p)
                      (terminated p) (running p) (fds_open p) (calls p)
          end
      end
  | FromSocket size taken raises =>
      match raises, sock_in p with
      | Some e, _ => io_error p e
      | None, [] => if client_open p then p else socket_disconnect p
      | None, _ :: _ =>
          let n := reads size (sock_in p) in
          let request := firstn n (sock_in p) in
          mkproxy (pty_in p) (skipn n (sock_in p)) (to_client p) (to_slave p ++ firstn taken request) (client_open p) (slave_open p)
            (terminated p) (running p) (fds_open p) (calls p)
      end
  end.
(** ptyproxy.py 82 *)
Fixpoint visits (p : proxy) (vs : list visit) : proxy :=
  match vs with
  | [] => p
  | v :: vs' => let p := visit_one p v in match running p with Looping => visits p vs' | _ => p end
  end.

(** What happens: start, stop, a round of the loop, bytes arriving at either end. *)
Inductive event :=
| SlaveWrites (l : list B) | ClientSends (l : list B)
| ClientCloses | SlaveCloses
| Start                    (* 67-101 *)
| Stop                     (* 103-106: the request; the caller then waits in join *)
| Join                     (* 107-112: join has returned *)
| Round (vs : list visit). (* one turn of the loop, 79-97 *)
Definition step (p : proxy) (e : event) : proxy :=
  match e with
  | SlaveWrites l => if slave_open p then mkproxy (pty_in p ++ l) (sock_in p) (to_client p) (to_slave p) (client_open p) (slave_open p) (terminated p) (running p) (fds_open p) (calls p) else p
  | ClientSends l => if client_open p then mkproxy (pty_in p) (sock_in p ++ l) (to_client p) (to_slave p) (client_open p) (slave_open p) (terminated p) (running p) (fds_open p) (calls p) else p
  | ClientCloses => mkproxy (pty_in p) (sock_in p) (to_client p) (to_slave p) false (slave_open p) (terminated p) (running p) (fds_open p) (calls p)
  | SlaveCloses => mkproxy (pty_in p) (sock_in p) (to_client p) (to_slave p) (client_open p) false (terminated p) (running p) (fds_open p) (calls p)
  | Start =>
      match running p with
      | NoThread => if fds_open p then mkproxy (pty_in p) (sock_in p) (to_client p) (to_slave p) (client_open p) (slave_open p) false Looping (fds_open p) (calls p)
                    else mkproxy (pty_in p) (sock_in p) (to_client p) (to_slave p) (client_open p) (slave_open p) false NoThread (fds_open p) (calls p)  (* ttyname(None) raises TypeError in line 100 *)
      | _ => p (* RuntimeError *)
      end
  | Stop =>
      match running p with
      | NoThread => p
      | _ => mkproxy (pty_in p) (sock_in p) (to_client p) (to_slave p) (client_open p) (slave_open p) true (running p) (fds_open p) (calls p)
      end
  | Join =>
      match running p with
      | Ended _ => if terminated p then mkproxy (pty_in p) (sock_in p) (to_client p) (to_slave p) (client_open p) (slave_open p) true NoThread false (calls p) else p
      | _ => p
      end
  | Round vs =>
      match running p with
      | Looping => if terminated p then set_running p (Ended Returned) else visits p vs
      | _ => p
      end
  end.
(** A whole history of a new proxy. *)
Definition run (h : list event) : proxy := fold_left step h new.
End Proxy.
Arguments proxy : clear implicits.
Arguments event : clear implicits.
