(** * What calls through a pool come to when nothing is known of the servers (C93). *)
From Verif Require Import Base DepUrl Serde Error Client ClientSpec SessionSpec Pool PoolSystem PoolSystemSpec HttpBytes CutsSpec WholeSpec PoolBytesSpec PoolOnceSpec.
Open Scope nat_scope.

(** The errand of a call: its procedure, value and body. *)
Definition errand_of (s : psys) (i : nat) : list errand :=
  match nth_error (s_calls s) i with Some pc => [mkErrand (c_proc pc) (fst (c_req pc)) (snd (c_req pc))] | None => [] end.
(** What the calls that have written on a connection find, one after the other, in the bytes that come back on it. *)
Definition found_on `{floatlib} `{urlenv} (trims : bool) (cl : limits) (far : conn -> bconn) (s : psys) (tr : list pevent) (c : conn) : list (value * bytes) :=
  found_all (most_bytes cl) (run (HttpBytes.pstep trims (most_headers cl)) (PVersion (u "HTTP/1.1 "))) (flat_map (errand_of s) (writers_on c tr)) (b_closed (far c)) (stream (far c)).
