(** * The names of HTTP statuses, from their standard reason phrases. *)
From Verif Require Import Base.
Open Scope N_scope.

(** The IANA registry of status codes (RFC 7231, 2518, 3229, 4918, 5842, 2324, 7238, 7540, 6585, 7725, 2295, 2774), and the customary 509. *)
Definition registry : list (N * ustr) :=
  [(100, u "Continue"); (101, u "Switching Protocols"); (102, u "Processing");
   (200, u "OK"); (201, u "Created"); (202, u "Accepted"); (203, u "Non-Authoritative Information"); (204, u "No Content"); (205, u "Reset Content");
   (206, u "Partial Content"); (207, u "Multi-Status"); (208, u "Already Reported"); (226, u "IM Used");
   (300, u "Multiple Choices"); (301, u "Moved Permanently"); (302, u "Found"); (303, u "See Other"); (304, u "Not Modified"); (305, u "Use Proxy");
   (307, u "Temporary Redirect"); (308, u "Permanent Redirect");
   (400, u "Bad Request"); (401, u "Unauthorized"); (402, u "Payment Required"); (403, u "Forbidden"); (404, u "Not Found"); (405, u "Method Not Allowed");
   (406, u "Not Acceptable"); (407, u "Proxy Authentication Required"); (408, u "Request Timeout"); (409, u "Conflict"); (410, u "Gone");
   (411, u "Length Required"); (412, u "Precondition Failed"); (413, u "Payload Too Large"); (414, u "URI Too Long"); (415, u "Unsupported Media Type");
   (416, u "Range Not Satisfiable"); (417, u "Expectation Failed"); (418, u "I'm a teapot"); (421, u "Misdirected Request"); (422, u "Unprocessable Entity");
   (423, u "Locked"); (424, u "Failed Dependency"); (426, u "Upgrade Required"); (428, u "Precondition Required"); (429, u "Too Many Requests");
   (431, u "Request Header Fields Too Large"); (451, u "Unavailable For Legal Reasons");
   (500, u "Internal Server Error"); (501, u "Not Implemented"); (502, u "Bad Gateway"); (503, u "Service Unavailable"); (504, u "Gateway Timeout");
   (505, u "HTTP Version Not Supported"); (506, u "Variant Also Negotiates"); (507, u "Insufficient Storage"); (508, u "Loop Detected");
   (509, u "Bandwidth Limit Exceeded"); (510, u "Not Extended"); (511, u "Network Authentication Required")].
(** The statuses of RFC 6585, which the library does not have. *)
Definition missing : list N := [428; 429; 431; 511].

(** A phrase as the name of a Rust variant: a capital at each start of a word, otherwise small letters, and nothing but letters. *)
Fixpoint camel (start : bool) (s : ustr) : ustr :=
  match s with
  | [] => []
  | c :: r =>
      if (c =? 32) || (c =? 45) then camel true r
      else if (65 <=? c) && (c <=? 90) then (if start then c else c + 32) :: camel false r
      else if (97 <=? c) && (c <=? 122) then (if start then c - 32 else c) :: camel false r
      else camel start r
  end.
(** [x] is the name of status [c]; 417 is misspelt in the library. *)
Definition status_named (c : N) (x : ustr) : Prop :=
  exists phrase, In (c, phrase) registry /\ ~ In c missing /\ x = (if c =? 417 then u "ExceptionFailed" else camel true phrase).
