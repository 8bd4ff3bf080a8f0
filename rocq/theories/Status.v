(** * HTTP statuses.

    [status], [code_of] and [normalize] model miasht's [Status] (re-exported by src/types.rs:3 as
    [HttpStatus]), [Status::code] and [RawStatus::normalize]; the codes are the IANA ones.
    [status_from_str] and [status_code_to_str] model the two tables of this crate. *)
From Verif Require Import Base.
Open Scope N_scope.

(** Models miasht [Status] (src/types.rs:3). *)
Inductive status :=
| StContinue
| StSwitchingProtocols
| StProcessing
| StOk
| StCreated
| StAccepted
| StNonAuthoritativeInformation
| StNoContent
| StResetContent
| StPartialContent
| StMultiStatus
| StAlreadyReported
| StImUsed
| StMultipleChoices
| StMovedPermanently
| StFound
| StSeeOther
| StNotModified
| StUseProxy
| StTemporaryRedirect
| StPermanentRedirect
| StBadRequest
| StUnauthorized
| StPaymentRequired
| StForbidden
| StNotFound
| StMethodNotAllowed
| StNotAcceptable
| StProxyAuthenticationRequired
| StRequestTimeout
| StConflict
| StGone
| StLengthRequired
| StPreconditionFailed
| StPayloadTooLarge
| StUriTooLong
| StUnsupportedMediaType
| StRangeNotSatisfiable
| StExceptionFailed
| StImATeapot
| StMisdirectedRequest
| StUnprocessableEntity
| StLocked
| StFailedDependency
| StUpgradeRequired
| StUnavailableForLegalReasons
| StInternalServerError
| StNotImplemented
| StBadGateway
| StServiceUnavailable
| StGatewayTimeout
| StHttpVersionNotSupported
| StVariantAlsoNegotiates
| StInsufficientStorage
| StLoopDetected
| StBandwidthLimitExceeded
| StNotExtended.

(** All constructors, for [normalize] at src/serializers/rpc_response.rs:208-209. *)
Definition all_status : list status :=
  [StContinue; StSwitchingProtocols; StProcessing; StOk;
   StCreated; StAccepted; StNonAuthoritativeInformation; StNoContent;
   StResetContent; StPartialContent; StMultiStatus; StAlreadyReported;
   StImUsed; StMultipleChoices; StMovedPermanently; StFound;
   StSeeOther; StNotModified; StUseProxy; StTemporaryRedirect;
   StPermanentRedirect; StBadRequest; StUnauthorized; StPaymentRequired;
   StForbidden; StNotFound; StMethodNotAllowed; StNotAcceptable;
   StProxyAuthenticationRequired; StRequestTimeout; StConflict; StGone;
   StLengthRequired; StPreconditionFailed; StPayloadTooLarge; StUriTooLong;
   StUnsupportedMediaType; StRangeNotSatisfiable; StExceptionFailed; StImATeapot;
   StMisdirectedRequest; StUnprocessableEntity; StLocked; StFailedDependency;
   StUpgradeRequired; StUnavailableForLegalReasons; StInternalServerError; StNotImplemented;
   StBadGateway; StServiceUnavailable; StGatewayTimeout; StHttpVersionNotSupported;
   StVariantAlsoNegotiates; StInsufficientStorage; StLoopDetected; StBandwidthLimitExceeded;
   StNotExtended].

(** Models miasht [Status::code] (used at src/deserializers/rpc_response.rs:255,281). *)
Definition code_of (s : status) : N :=
  match s with
  | StContinue => 100
  | StSwitchingProtocols => 101
  | StProcessing => 102
  | StOk => 200
  | StCreated => 201
  | StAccepted => 202
  | StNonAuthoritativeInformation => 203
  | StNoContent => 204
  | StResetContent => 205
  | StPartialContent => 206
  | StMultiStatus => 207
  | StAlreadyReported => 208
  | StImUsed => 226
  | StMultipleChoices => 300
  | StMovedPermanently => 301
  | StFound => 302
  | StSeeOther => 303
  | StNotModified => 304
  | StUseProxy => 305
  | StTemporaryRedirect => 307
  | StPermanentRedirect => 308
  | StBadRequest => 400
  | StUnauthorized => 401
  | StPaymentRequired => 402
  | StForbidden => 403
  | StNotFound => 404
  | StMethodNotAllowed => 405
  | StNotAcceptable => 406
  | StProxyAuthenticationRequired => 407
  | StRequestTimeout => 408
  | StConflict => 409
  | StGone => 410
  | StLengthRequired => 411
  | StPreconditionFailed => 412
  | StPayloadTooLarge => 413
  | StUriTooLong => 414
  | StUnsupportedMediaType => 415
  | StRangeNotSatisfiable => 416
  | StExceptionFailed => 417
  | StImATeapot => 418
  | StMisdirectedRequest => 421
  | StUnprocessableEntity => 422
  | StLocked => 423
  | StFailedDependency => 424
  | StUpgradeRequired => 426
  | StUnavailableForLegalReasons => 451
  | StInternalServerError => 500
  | StNotImplemented => 501
  | StBadGateway => 502
  | StServiceUnavailable => 503
  | StGatewayTimeout => 504
  | StHttpVersionNotSupported => 505
  | StVariantAlsoNegotiates => 506
  | StInsufficientStorage => 507
  | StLoopDetected => 508
  | StBandwidthLimitExceeded => 509
  | StNotExtended => 510
  end.

(** Models miasht [RawStatus::normalize] (used at src/serializers/rpc_response.rs:208-209): the known status
    with that code. *)
(** [HttpStatus::normalize], used at src/serializers/rpc_response.rs:207. *)
Definition normalize (code : N) : option status := find (fun s => code_of s =? code) all_status.

(** The arms of the match at src/serializers/rpc_response.rs:255-312, in order. *)
Definition from_str_table : list (ustr * status) :=
  [(u "Continue", StContinue);
   (u "SwitchingProtocols", StSwitchingProtocols);
   (u "Processing", StProcessing);
   (u "Ok", StOk);
   (u "Created", StCreated);
   (u "Accepted", StAccepted);
   (u "NonAuthoritativeInformation", StNonAuthoritativeInformation);
   (u "NoContent", StNoContent);
   (u "ResetContent", StResetContent);
   (u "PartialContent", StPartialContent);
   (u "MultiStatus", StMultiStatus);
   (u "AlreadyReported", StAlreadyReported);
   (u "ImUsed", StImUsed);
   (u "MultipleChoices", StMultipleChoices);
   (u "MovedPermanently", StMovedPermanently);
   (u "Found", StFound);
   (u "SeeOther", StSeeOther);
   (u "NotModified", StNotModified);
   (u "UseProxy", StUseProxy);
   (u "TemporaryRedirect", StTemporaryRedirect);
   (u "PermanentRedirect", StPermanentRedirect);
   (u "BadRequest", StBadRequest);
   (u "Unauthorized", StUnauthorized);
   (u "PaymentRequired", StPaymentRequired);
   (u "Forbidden", StForbidden);
   (u "NotFound", StNotFound);
   (u "MethodNotAllowed", StMethodNotAllowed);
   (u "NotAcceptable", StNotAcceptable);
   (u "ProxyAuthenticationRequired", StProxyAuthenticationRequired);
   (u "RequestTimeout", StRequestTimeout);
   (u "Conflict", StConflict);
   (u "Gone", StGone);
   (u "LengthRequired", StLengthRequired);
   (u "PreconditionFailed", StPreconditionFailed);
   (u "PayloadTooLarge", StPayloadTooLarge);
   (u "UriTooLong", StUriTooLong);
   (u "UnsupportedMediaType", StUnsupportedMediaType);
   (u "RangeNotSatisfiable", StRangeNotSatisfiable);
   (u "ExceptionFailed", StExceptionFailed);
   (u "ImATeapot", StImATeapot);
   (u "MisdirectedRequest", StMisdirectedRequest);
   (u "UnprocessableEntity", StUnprocessableEntity);
   (u "Locked", StLocked);
   (u "FailedDependency", StFailedDependency);
   (u "UpgradeRequired", StUpgradeRequired);
   (u "UnavailableForLegalReasons", StUnavailableForLegalReasons);
   (u "InternalServerError", StInternalServerError);
   (u "NotImplemented", StNotImplemented);
   (u "BadGateway", StBadGateway);
   (u "ServiceUnavailable", StServiceUnavailable);
   (u "GatewayTimeout", StGatewayTimeout);
   (u "HttpVersionNotSupported", StHttpVersionNotSupported);
   (u "VariantAlsoNegotiates", StVariantAlsoNegotiates);
   (u "InsufficientStorage", StInsufficientStorage);
   (u "LoopDetected", StLoopDetected);
   (u "BandwidthLimitExceeded", StBandwidthLimitExceeded);
   (u "NotExtended", StNotExtended)].

(** The first arm with that name, src/serializers/rpc_response.rs:255-314. *)
Fixpoint lookup_name (s : ustr) (t : list (ustr * status)) : res status :=
  match t with
  | [] => Err Invalid
  | (n, st) :: r => if ustr_eqb s n then Ok st else lookup_name s r
  end.
(** Models src/serializers/rpc_response.rs:254-315 [status_from_str]. *)
Definition status_from_str (s : ustr) : res status := lookup_name s from_str_table.

(** The arms of the match at src/deserializers/rpc_response.rs:313-375, in order. *)
Definition code_table : list (N * ustr) :=
  [(100, u "Continue");
   (101, u "SwitchingProtocols");
   (102, u "Processing");
   (200, u "Ok");
   (201, u "Created");
   (202, u "Accepted");
   (203, u "NonAuthoritativeInformation");
   (204, u "NoContent");
   (205, u "ResetContent");
   (206, u "PartialContent");
   (207, u "MultiStatus");
   (208, u "AlreadyReported");
   (226, u "ImUsed");
   (300, u "MultipleChoices");
   (301, u "MovedPermanently");
   (302, u "Found");
   (303, u "SeeOther");
   (304, u "NotModified");
   (305, u "UseProxy");
   (307, u "TemporaryRedirect");
   (308, u "PermanentRedirect");
   (400, u "BadRequest");
   (401, u "Unauthorized");
   (402, u "PaymentRequired");
   (403, u "Forbidden");
   (404, u "NotFound");
   (405, u "MethodNotAllowed");
   (406, u "NotAcceptable");
   (407, u "ProxyAuthenticationRequired");
   (408, u "RequestTimeout");
   (409, u "Conflict");
   (410, u "Gone");
   (411, u "LengthRequired");
   (412, u "PreconditionFailed");
   (413, u "PayloadTooLarge");
   (414, u "UriTooLong");
   (415, u "UnsupportedMediaType");
   (416, u "RangeNotSatisfiable");
   (417, u "ExceptionFailed");
   (418, u "ImATeapot");
   (421, u "MisdirectedRequest");
   (422, u "UnprocessableEntity");
   (423, u "Locked");
   (424, u "FailedDependency");
   (426, u "UpgradeRequired");
   (451, u "UnavailableForLegalReasons");
   (500, u "InternalServerError");
   (501, u "NotImplemented");
   (502, u "BadGateway");
   (503, u "ServiceUnavailable");
   (504, u "GatewayTimeout");
   (505, u "HttpVersionNotSupported");
   (506, u "VariantAlsoNegotiates");
   (507, u "InsufficientStorage");
   (508, u "LoopDetected");
   (509, u "BandwidthLimitExceeded");
   (510, u "NotExtended")].

(** The first arm with that code, src/deserializers/rpc_response.rs:313-376. *)
Fixpoint lookup_code (c : N) (t : list (N * ustr)) : res ustr :=
  match t with
  | [] => Err Invalid
  | (k, n) :: r => if c =? k then Ok n else lookup_code c r
  end.
(** Models src/deserializers/rpc_response.rs:312-377 [status_code_to_str]. *)
Definition status_code_to_str (c : N) : res ustr := lookup_code c code_table.
