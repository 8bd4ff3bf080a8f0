(** * Problem details.  Models src/rfc7807.rs. *)
From Verif Require Import Base Utf8 Decimal Serde Status Json JsonText JsonDe.
Open Scope N_scope.

(** Models src/rfc7807.rs:118-128 [Problem] with 179-186 [AboutBlankProblem] and 198-220 [TrackableProblem].
    Simplification: [instance] is represented by the text of the URL; statuses are [u16] as numbers. *)
Inductive problem :=
| AboutBlank (title : ustr) (status : N)
| Trackable (title : ustr) (status : N) (detail instance : option ustr) (history : option (list ustr)).

(** src/rfc7807.rs:122. *)
Definition about_tag : ustr := u "about:blank".
(** src/rfc7807.rs:126. *)
Definition trackable_tag : ustr := u "https://docs.rs/htrpc/0.0.2/htrpc/rfc7807/struct.TrackableProblem.html".

(** Models src/rfc7807.rs:131-133, 189-194: [reason] is [Status::reason_phrase] of miasht, left open. *)
Definition about_blank (reason : status -> ustr) (st : status) : problem := AboutBlank (reason st) (code_of st).
(** Models src/rfc7807.rs:136-142, 223-237: [title], [detail] and [history] are what the error prints. *)
Definition trackable (st : status) (title : ustr) (detail : option ustr) (history : option (list ustr)) : problem :=
  Trackable title (code_of st) detail None history.
(** Models src/rfc7807.rs:149-154 [get_status_code]. *)
Definition problem_status (p : problem) : N := match p with AboutBlank _ s | Trackable _ s _ _ _ => s end.
(** Models src/rfc7807.rs:156-160 [Default]. *)
Definition default_problem (reason : status -> ustr) : problem := about_blank reason StInternalServerError.

(** ** Serialization: serde_derive's internally tagged enums (src/rfc7807.rs:118-128) put the tag first; fields with
    [skip_serializing_if] (207, 212, 217) are left out when [None]. *)
Definition opt_member (n : ustr) (o : option value) : list (ustr * value) :=
  match o with Some v => [(n, SSome v)] | None => [] end.
(** What the derived [Serialize] makes of src/rfc7807.rs:118-128,179-220: a tagged enum is the tag followed by the fields. *)
Definition problem_value (p : problem) : value :=
  match p with
  | AboutBlank title s =>
      SStruct (u "AboutBlankProblem") [(u "type", SStr about_tag); (u "title", SStr title); (u "status", SInt U16 (Z.of_N s))]
  | Trackable title s detail instance history =>
      SStruct (u "TrackableProblem")
        ([(u "type", SStr trackable_tag); (u "title", SStr title); (u "status", SInt U16 (Z.of_N s))] ++
         opt_member (u "detail") (option_map SStr detail) ++ opt_member (u "instance") (option_map SStr instance) ++
         opt_member (u "history") (option_map (fun h => SSeq (map SStr h)) history))
  end.

(** ** Deserialization: serde's [TaggedContentVisitor] takes the tag out of an object, or off the front of an array ...
    The derived [Deserialize] of src/rfc7807.rs:118-128. *)
Fixpoint take_tag (tag : option ustr) (rest : list (ustr * json)) (l : list (ustr * json)) : res (ustr * list (ustr * json)) :=
  match l with
  | [] => match tag with Some t => Ok (t, rest) | None => Err Invalid end   (* missing_field *)
  | (k, j) :: r =>
      if ustr_eqb k (u "type") then
        match tag, j with
        | None, JStr t => take_tag (Some t) rest r
        | _, _ => Err Invalid                                               (* duplicate_field; tag not a string *)
        end
      else take_tag tag (rest ++ [(k, j)]) r
  end.
(** The derived [Deserialize] of src/rfc7807.rs:118-128. *)
Definition tagged (j : json) : res (ustr * json) :=
  match j with
  | JObj l => '(t, r) <- take_tag None [] l ;; Ok (t, JObj r)
  | JArr (JStr t :: r) => Ok (t, JArr r)
  | _ => Err Invalid
  end.
(** ... and the content is read as the struct of that variant: src/rfc7807.rs:179-186 and 198-220. *)
Definition about_fields : list (ustr * ty) := [(u "title", TStr); (u "status", TInt U16)].
(** The fields of src/rfc7807.rs:199-220. *)
Definition trackable_fields : list (ustr * ty) :=
  about_fields ++ [(u "detail", TOption TStr); (u "instance", TOption TStr); (u "history", TOption (TSeq TStr))].
(** In an array, fields with [serde(default)] (208, 213, 218) may be missing at the end. src/rfc7807.rs:207-219. *)
Definition pad (fs : list (ustr * ty)) (l : list json) : list json :=
  l ++ map (fun _ => JNull) (filter (fun f => is_option (snd f)) (skipn (length l) fs)).

Section Problem.
Context `{floatlib} `{jsonfloat}.
(** [Url::parse] followed by [Url::as_str] (the url crate), left open. *)
Variable url_norm : ustr -> option ustr.

(** The derived [Deserialize] of src/rfc7807.rs:179-186,198-220. *)
Definition read_fields (fs : list (ustr * ty)) (j : json) : res (list (ustr * value)) :=
  json_struct (map (fun f => (fst f, from_json (snd f))) fs) fs match j with JArr l => JArr (pad fs l) | j => j end.
(** An optional text, src/rfc7807.rs:209. *)
Definition opt_str (v : value) : option ustr := match v with SSome (SStr s) => Some s | _ => None end.
(** The texts at src/rfc7807.rs:219. *)
Definition strings (l : list value) : list ustr := flat_map (fun v => match v with SStr s => [s] | _ => [] end) l.

(** The derived [Deserialize] of src/rfc7807.rs:118-128 with 179-186 and 198-220. *)
Definition problem_of_json (j : json) : res problem :=
  '(t, c) <- tagged j ;;
  if ustr_eqb t about_tag then
    vs <- read_fields about_fields c ;;
    match vs with
    | [(_, SStr title); (_, SInt _ s)] => Ok (AboutBlank title (Z.to_N s))
    | _ => Err Invalid
    end
  else if ustr_eqb t trackable_tag then
    vs <- read_fields trackable_fields c ;;
    match vs with
    | [(_, SStr title); (_, SInt _ s); (_, d); (_, i); (_, h)] =>
        i <- match opt_str i with
             | None => Ok None
             | Some s => match url_norm s with Some n => Ok (Some n) | None => Err Invalid end
             end ;;
        Ok (Trackable title (Z.to_N s) (opt_str d) i (match h with SSome (SSeq l) => Some (strings l) | _ => None end))
    | _ => Err Invalid
    end
  else Err Invalid.

(** Models src/rfc7807.rs:45-48 [body]: the pretty JSON text as bytes; a serialization error panics. *)
Definition problem_body (p : problem) : res bytes :=
  match to_json_string_pretty (problem_value p) with
  | Ok s => Ok (utf8_encode s)
  | Err _ | Panic => Panic                                                  (* expect, 46 *)
  | Diverge => Diverge
  end.
(** [serdeconv::from_json_slice::<Problem>], called at src/rfc7807.rs:50. *)
Definition problem_read (b : bytes) : res problem :=
  match utf8_decode b with Some s => j <- parse_json s ;; problem_of_json j | None => Err Invalid end.

(** ** [ProblemResponse] *)
(** Models src/rfc7807.rs:18-24; the header (57-68) has a single value. *)
Record presp := mkPresp { pr_status : option N; pr_problem : problem }.
(** Models src/rfc7807.rs:26-32 [new] and 145-147 [into_response]. *)
Definition into_response (p : problem) : presp := mkPresp (Some (problem_status p)) p.
(** Models src/rfc7807.rs:40-42 [set_problem]. *)
Definition set_problem (r : presp) (p : problem) : presp := mkPresp (pr_status r) p.
(** Models src/rfc7807.rs:45-48 and 49-54 of [RpcResponse]: a body that is no problem is ignored. *)
Definition pr_body (r : presp) : res bytes := problem_body (pr_problem r).
(** Models src/rfc7807.rs:49-54 [set_body]: a body that is no problem is ignored. *)
Definition pr_set_body (r : presp) (b : bytes) : presp :=
  match problem_read b with Ok p => mkPresp (pr_status r) p | _ => r end.

Definition problem_json_type : ustr := u "application/problem+json".        (* 172-174 *)
(** What [ProblemResponse] serializes as: src/rfc7807.rs:18-24, 57-61. *)
Definition pr_value (r : presp) : value :=
  SStruct (u "ProblemResponse")
    [(u "status", match pr_status r with Some s => SSome (SInt U16 (Z.of_N s)) | None => SNone end);
     (u "header", SStruct (u "ProblemHeader") [(u "content-type", SUnitStruct problem_json_type)])].
(** What it requests when deserialized; the skipped [body] (22-23) becomes the default problem. src/rfc7807.rs:18-24,57-61,172-174. *)
Definition pr_ty : ty :=
  TStruct (u "ProblemResponse")
    [(u "status", TOption (TInt U16));
     (u "header", TStruct (u "ProblemHeader") [(u "content-type", TUnitStruct problem_json_type)])].
(** What the derived [Deserialize] of src/rfc7807.rs:18-24 makes of the fields read; the skipped body is the default (156-160). *)
Definition pr_decoded (reason : status -> ustr) (v : value) : option presp :=
  match v with
  | SStruct _ [(_, s); (_, _)] =>
      Some (mkPresp match s with SSome (SInt _ z) => Some (Z.to_N z) | _ => None end (default_problem reason))
  | _ => None
  end.
End Problem.
