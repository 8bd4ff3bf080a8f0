(** * Clients of two servers that send the same (C85). *)
From Verif Require Import Base Serde Router Error Client ClientSpec Server ServerSpec ServerFairSpec SessionSpec HttpBytes CutsSpec.

(** What was replied to client [i]. *)
Definition heard {Conn} (i : nat) (ev : list (event Conn)) : list replying := replied (doings i ev).

(** What the second sends begins with what the first sends, and goes on differently only if the first may go on; how the bytes
    are cut, when they come and how long it takes to connect plays no part. *)
Definition sends_more (room : nat) (f f' : fut bconn) : Prop := follows (leads room) (settle f) (settle f').
