(** * What an RPC request is supposed to be on the wire, independently of the serializer's state. *)
From Verif Require Import Base Utf8 Decimal DepUrl Serde Procedure ScalarSpec PathSpec FieldSpec SerHeader SerRequest UrlProofs.
Open Scope N_scope.

(** The struct, or the struct variant ([true]), inside the newtypes of a request. *)
Fixpoint body_of (v : value) : option (bool * list (ustr * value)) :=
  match v with
  | SNewtypeStruct _ v | SNewtypeVariant _ _ v => body_of v
  | SStruct _ fs => Some (false, fs)
  | SStructVariant _ _ fs => Some (true, fs)
  | _ => None
  end.

(** The fields of a request that can be sent: paths, then at most one query, then headers. *)
Definition parts (ps : list value) (q : option value) (hs : list value) : list (ustr * value) :=
  map (pair (u "path")) ps ++ match q with Some q => [(u "query", q)] | None => [] end ++ map (pair (u "header")) hs.

(** Values as Rust programs have them: all texts are sequences of Unicode scalar values. *)
Fixpoint wf_value (v : value) : bool :=
  match v with
  | SChar c => is_scalar c
  | SStr s => str_ok s
  | SUnitStruct n => str_ok n
  | SUnitVariant _ x => str_ok x
  | SSome v | SNewtypeStruct _ v | SNewtypeVariant _ _ v => wf_value v
  | SSeq vs | STuple vs | STupleStruct _ vs | STupleVariant _ _ vs => forallb wf_value vs
  | SMap kvs => forallb (fun kv => wf_value (fst kv) && wf_value (snd kv)) kvs
  | SStruct _ fs | SStructVariant _ _ fs => forallb (fun f => str_ok (fst f) && wf_value (snd f)) fs
  | _ => true
  end.
Definition entry_ok (ep : entry_point) : Prop := forall c, In (Val c) ep -> str_ok c = true.

Section RequestSpec.
Context `{urlenv} `{floatlib}.

(** The texts a value supplies for the variables of [ep]. *)
Definition args_for (ep : entry_point) (v : value) (ts : list ustr) : Prop :=
  path_args v = Some ts /\ length ts = var_count ep.

Definition query_part (q : option value) (l : option (list (ustr * ustr))) : Prop :=
  match q, l with
  | Some q, Some l => query_written q = Some l
  | None, None => True
  | _, _ => False
  end.

(** The message for given parts; a request without path stands for the unit path. *)
Inductive sends (ep : entry_point) (len : N) : bool * list (ustr * value) -> reqb -> Prop :=
| Sends ps q hs tss ql ls :
    (ps = [] -> q = None) ->
    Forall2 (args_for ep) match ps with [] => [SUnit] | _ => ps end tss ->
    query_part q ql ->
    Forall2 (fun h l => header_written h = Some l) hs ls ->
    sends ep len (false, parts ps q hs)
      (mkReqb (url_text (fold_left push (flat_map (fill ep) tss) [[]]) (option_map pairs_text ql))
              (concat ls ++ [length_header len]))
| SendsVariant ts :
    args_for ep SUnit ts ->
    sends ep len (true, []) (mkReqb (url_text (fold_left push (fill ep ts) [[]]) None) [length_header len]).

(** Entry points no client request can reach: the empty one, those with a constant that URLs do not keep literally,
    and those that begin with an empty constant and go on. *)
Definition never_reached (ep : entry_point) : Prop :=
  ep = [] \/ (exists c, In (Val c) ep /\ c <> [] /\ ~ plain_const c) \/ (exists sg r, ep = Val [] :: sg :: r).
End RequestSpec.
