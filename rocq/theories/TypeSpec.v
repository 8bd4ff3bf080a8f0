(** * Types that make sense, and inputs as Rust's types guarantee them. *)
From Verif Require Import Base DepUrl Serde Json DeHeader Router Client Server.
Open Scope N_scope.

(** A struct has each field name once; self-describing types ([TAny]) say nothing about their values. *)
Fixpoint wf_ty (t : ty) : bool :=
  match t with
  | TOption t | TNewtype _ t | TSeq t => wf_ty t
  | TTuple ts | TTupleStruct _ ts => forallb wf_ty ts
  | TMap k v => wf_ty k && wf_ty v
  | TStruct _ fs => nodup_names (map fst fs) && forallb (fun f => wf_ty (snd f)) fs
  | TEnum _ vs => forallb (fun f => wf_vty (snd f)) vs
  | TAny => false
  | _ => true
  end
with wf_vty (t : vty) : bool :=
  match t with
  | VUnit => true
  | VNewtype t => wf_ty t
  | VTuple ts => forallb wf_ty ts
  | VStruct fs => nodup_names (map fst fs) && forallb (fun f => wf_ty (snd f)) fs
  end.

(** The segments of a URL's path are strings; header names are strings and header values are bytes; the strings in a JSON tree are strings. *)
Definition url_ok (x : url) : bool := match u_path x with Some segs => forallb str_ok segs | None => true end.
Definition headers_ok (hs : list rheader) : bool := forallb (fun h => str_ok (fst h) && bytes_ok (snd h)) hs.
Fixpoint strings_ok (j : json) : bool :=
  match j with
  | JStr s => str_ok s
  | JArr l => forallb strings_ok l
  | JObj l => forallb (fun kv => str_ok (fst kv) && strings_ok (snd kv)) l
  | _ => true
  end.

(** A request as it may arrive; a procedure that does something else when its request is not of the declared type. *)
Definition request_ok {Conn} (r : request Conn) : bool := str_ok (q_target r) && headers_ok (q_headers r).
Definition guarded `{floatlib} {Conn R} (other : value -> request Conn -> fut (request Conn * R)) (p : hproc Conn R) : hproc Conn R :=
  mkHproc (hp_method p) (hp_entry p) (hp_req p) (fun v r => if has_ty (hp_req p) v then hp_body p v r else other v r) (hp_call p).
