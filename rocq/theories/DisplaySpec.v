(* Specification for C69: the messages of all errors. *)
From Verif Require Import Base.
Local Open Scope string_scope.

(* what Display writes for each error with which a mail is refused *)
Definition mail_messages : list (string * error) :=
  [("TAG ERROR: Headers must be followed by a CRLF sequence.", Explicit "TAG ERROR: Headers must be followed by a CRLF sequence.");
   ("TAG ERROR: In a body, a line must end with a CRLF sequence.", Explicit "TAG ERROR: In a body, a line must end with a CRLF sequence.");
   ("There are too many From headers in this mail.", DuplicateHeader "From");
   ("There are too many Sender headers in this mail.", DuplicateHeader "Sender");
   ("There are too many Subject headers in this mail.", DuplicateHeader "Subject");
   ("There are too many Date headers in this mail.", DuplicateHeader "Date");
   ("There are too many To headers in this mail.", DuplicateHeader "To");
   ("There are too many Cc headers in this mail.", DuplicateHeader "Cc");
   ("There are too many Bcc headers in this mail.", DuplicateHeader "Bcc");
   ("There are too many Message-ID headers in this mail.", DuplicateHeader "Message-ID");
   ("There are too many In-Reply-To headers in this mail.", DuplicateHeader "In-Reply-To");
   ("There are too many References headers in this mail.", DuplicateHeader "References");
   ("There are too many Reply-To headers in this mail.", DuplicateHeader "Reply-To");
   ("There are too many Mime-Version headers in this mail.", DuplicateHeader "Mime-Version");
   ("There are too many Content-Type headers in this mail.", DuplicateHeader "Content-Type");
   ("There are too many Content-Transfer-Encoding headers in this mail.", DuplicateHeader "Content-Transfer-Encoding");
   ("There are too many Content-Id headers in this mail.", DuplicateHeader "Content-Id");
   ("There are too many Content-Description headers in this mail.", DuplicateHeader "Content-Description");
   ("There are too many Content-Disposition headers in this mail.", DuplicateHeader "Content-Disposition");
   ("A valid From header is required.", MissingHeader "From");
   ("A valid Date header is required.", MissingHeader "Date");
   ("A valid Sender header is required.", MissingHeader "Sender");
   ("Missing at least 3 bytes", Unknown "Missing at least 3 bytes");
   ("Missing at least 2 bytes", Unknown "Missing at least 2 bytes");
   ("Missing at least 1 byte", Unknown "Missing at least 1 byte");
   ("Data after end of data", Unknown "Data after end of data");
   ("Unknown format", Unknown "Unknown format")].
(* and a part or an entity *)
Definition part_messages : list (string * error) :=
  [("TAG ERROR: A MIME entity header part must be followed by a CRLF sequence.", Explicit "TAG ERROR: A MIME entity header part must be followed by a CRLF sequence.");
   ("Missing at least 3 bytes", Unknown "Missing at least 3 bytes");
   ("Missing at least 2 bytes", Unknown "Missing at least 2 bytes");
   ("Missing at least 1 byte", Unknown "Missing at least 1 byte");
   ("Data after end of data", Unknown "Data after end of data");
   ("Unknown format", Unknown "Unknown format");
   ("Missing boundary parameter", Unknown "Missing boundary parameter");
   ("closing boundary not found", Unknown "closing boundary not found");
   ("Invalid text encoding", Unknown "Invalid text encoding")].
