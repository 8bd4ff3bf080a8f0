(** * Polls of the server.  Models src/server.rs:131-166 and 180-280 as an executor sees them: a poll goes on until
    [NotReady] or the end, and nothing else is polled by that thread meanwhile. *)
From Verif Require Import Base Decimal DepUrl Serde Json Procedure Router Status SerResponse DeHeader DeRequest JsonText Problem Error Client Server.

Section Polls.
Context `{floatlib} `{urlenv} {Conn R L : Type}.
Variable explain : request Conn -> ekind -> ustr * option ustr * option (list ustr).
Variable reason : status -> ustr.
Variable ln : link Conn.
Variable incoming : L -> fut (option (fut Conn) * L).

(** Models src/server.rs:131-166 [RpcServer::poll]: rounds until [NotReady] or the end.  The loop has no bound of its own,
    so [Diverge] means that it was still going after [fuel] rounds. *)
Fixpoint poll_accept (fuel : nat) (a : aphase Conn L) : list (task Conn) * res (astep Conn L) :=
  match fuel with
  | O => ([], Diverge)
  | S fuel =>
      match accept_turn incoming a with
      | (ts, AGoes a) => let '(ts', s) := poll_accept fuel a in (ts ++ ts', s)
      | (ts, s) => (ts, Ok s)
      end
  end.

(** One poll by the executor of the accept loop (src/server.rs:131-166) or of a spawned connection (src/server.rs:274-280). *)
Definition serve_poll (tr : trie (hproc Conn R)) (w : who) (fuel : nat) (s : server Conn L) : list (event Conn) * res (server Conn L) :=
  match w with
  | Acceptor =>
      match v_accept s with
      | AGoes a | ASleeps a =>
          let '(ts, st) := poll_accept fuel a in
          (map (fun i => ESpawn (length (v_tasks s) + i)) (seq 0 (length ts)),
           match st with Ok st => Ok (mkServer st (v_tasks s ++ map Goes ts)) | _ => Diverge end)
      | AStops _ => ([], Ok s)
      end
  | Connection i =>
      match nth_error (v_tasks s) i with
      | Some (Goes t) | Some (Sleeps t) =>
          let '(a, st) := poll_task explain reason ln tr fuel t in
          (map (EAct i) a, match st with Ok st => Ok (mkServer (v_accept s) (update i st (v_tasks s))) | _ => Diverge end)
      | _ => ([], Ok s)
      end
  end.
(** Polls in the order of an executor's choice, each with a bound on its rounds; a poll that does not come back is the last. Not in the code. *)
Fixpoint serve_polls (tr : trie (hproc Conn R)) (polls : list (who * nat)) (s : server Conn L) : list (event Conn) * res (server Conn L) :=
  match polls with
  | [] => ([], Ok s)
  | (w, fuel) :: r =>
      match serve_poll tr w fuel s with
      | (e, Ok s) => let '(e', x) := serve_polls tr r s in (e ++ e', x)
      | (e, x) => (e, x)
      end
  end.
End Polls.
