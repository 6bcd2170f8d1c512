{"id": "C01", "title": "Parsing is total and memory safe", "statement": "Email::parse returns Ok or Err on every byte string: it never panics, never reads or writes out of bounds through an unchecked access, never builds a str from invalid UTF-8, and always terminates (builds without arithmetic overflow checks, every feature set; builds with them, every feature set without mime).", "quantifier": "every byte string, every feature configuration that compiles, every hash-map iteration order", "why_tests_cant": "The input space is unbounded and a crash needs one particular byte sequence; unit tests only sample short well-formed mails.", "anchors": ["email-parser/src/email.rs: Email::parse", "email-parser/src/parsing/message.rs", "email-parser/src/parsing/combinators.rs", "email-parser/src/string.rs"]}
{"id": "C02", "title": "Entity parsing is total and memory safe", "statement": "RawEntity::parse and the raw entity parser behind it return Ok or Err on every entity/byte string: no panic, no out-of-bounds unchecked access, no invalid str, always terminating (builds without overflow checks).", "quantifier": "every raw entity (any type, parameters, bytes), every iteration order", "why_tests_cant": "Unbounded inputs; needs an invariant of the splitting and decoding loops.", "anchors": ["email-parser/src/mime.rs: RawEntity::parse", "email-parser/src/parsing/mime/entity.rs", "email-parser/src/parsing/mime/multipart.rs"]}
{"id": "C03", "title": "A mail can make an overflow-checked build panic", "statement": "In a build with arithmetic overflow checks (debug), no mail makes parsing panic. (False of the code: a Content-Type parameter split in 256 continuations overflows a u8 counter.)", "quantifier": "every byte string, overflow-checked builds with mime", "why_tests_cant": "Needs a header with all 256 continuation indexes; no test has one.", "anchors": ["email-parser/src/parsing/mime/percent_encoding.rs: collect_parameters"]}
{"id": "C04", "title": "Recursion depth of comment parsing", "statement": "There is a constant bound on the recursion depth needed to parse any header. (False of the code: the depth grows with the nesting of comments, so a stack of any fixed size is exhausted by some mail.)", "quantifier": "every stack depth bound, every input", "why_tests_cant": "A test can only exhibit one depth on one machine.", "anchors": ["email-parser/src/parsing/whitespaces.rs: comment, ccontent"]}
{"id": "C05", "title": "Base64 round trip", "statement": "Decoding the base64 encoding of any byte string succeeds and returns exactly that byte string.", "quantifier": "every byte string of every length", "why_tests_cant": "Padding and line-wrapping cases depend on length mod 3 and mod 54; all values of every byte matter.", "anchors": ["email-parser/src/parsing/mime/base64.rs: encode_base64, decode_base64"]}
{"id": "C06", "title": "Base64 decoding ignores foreign bytes", "statement": "Decoding depends only on the alphabet and padding characters of the data: deleting or inserting any other bytes anywhere changes neither the success nor the decoded value.", "quantifier": "every byte string, every placement of noise", "why_tests_cant": "Noise can sit at any of the positions between quantum characters; the in-place decoder moves data while skipping.", "anchors": ["email-parser/src/parsing/mime/base64.rs: decode_base64"]}
{"id": "C07", "title": "Base64 decoding is the RFC 4648 decoding", "statement": "The in-place decoder computes exactly the group-of-four decoding of the significant characters, including which inputs are rejected.", "quantifier": "every byte string", "why_tests_cant": "The in-place index arithmetic must be right for every interleaving of noise, padding and groups.", "anchors": ["email-parser/src/parsing/mime/base64.rs: decode_base64"]}
{"id": "C08", "title": "Base64 encoder output shape", "statement": "The base64 encoder only outputs alphabet characters, padding and CRLF, every line has at most 76 characters and, CRLFs removed, its length is 4*ceil(n/3).", "quantifier": "every byte string", "why_tests_cant": "Line-length limits concern arbitrarily long data.", "anchors": ["email-parser/src/parsing/mime/base64.rs: encode_base64"]}
{"id": "C09", "title": "Quoted-printable round trip", "statement": "Decoding the quoted-printable encoding of any byte string returns exactly that byte string.", "quantifier": "every byte string", "why_tests_cant": "Soft breaks, trailing blanks, bare CR/LF and '=' interact at arbitrary positions.", "anchors": ["email-parser/src/parsing/mime/quoted_printables.rs: encode_qp, decode_qp"]}
{"id": "C10", "title": "Quoted-printable encoder output shape", "statement": "The quoted-printable encoder outputs only printable ASCII, space, tab and CRLF, lines of at most 76 characters, and never a blank at the end of a line or of the data.", "quantifier": "every byte string", "why_tests_cant": "Line-length limits concern arbitrarily long data and all alignments.", "anchors": ["email-parser/src/parsing/mime/quoted_printables.rs: encode_qp"]}
{"id": "C11", "title": "Quoted-printable decoding is the left-to-right RFC 2045 decoding", "statement": "The in-place decoder computes the one-pass decoding (escape -> byte, soft break -> nothing, literal -> itself, malformed escape or illegal byte -> U+FFFD), for every input, in body form and in the header Q form.", "quantifier": "every byte string", "why_tests_cant": "The decoder edits the vector while scanning; every interleaving of escapes and soft breaks matters.", "anchors": ["email-parser/src/parsing/mime/quoted_printables.rs: decode_qp, decode_header_qp"]}
{"id": "C12", "title": "Transfer decoding of a body", "statement": "A MIME body is returned unchanged for 7bit, 8bit and binary, decoded for base64 and quoted-printable, and refused for an unknown encoding; so the content given to an encoder comes back.", "quantifier": "every body and every declared encoding", "why_tests_cant": "Quantifies over all contents.", "anchors": ["email-parser/src/parsing/mime/entity.rs: decode_value", "email-parser/src/email.rs: Email::parse"]}
{"id": "C13", "title": "Percent decoding of extended parameters", "statement": "Percent-decoding a parameter whose every '%' starts a two-digit escape gives the left-to-right decoding; encoding any bytes with '%' escaped and decoding gives the bytes back. Without that proviso each escape is decoded exactly once (False of the code: '%%34%31' is decoded twice).", "quantifier": "every byte string, every escaping choice", "why_tests_cant": "The decoder works right to left in place; the double decoding shows only on malformed escapes.", "anchors": ["email-parser/src/parsing/mime/percent_encoding.rs: decode_parameter"]}
{"id": "C14", "title": "Encoded words round trip", "statement": "An RFC 2047 encoded word built from any UTF-8 text, in B or Q form, with any capitalisation of the charset and encoding and any language tag, is decoded to exactly that text.", "quantifier": "every valid UTF-8 text, every capitalisation", "why_tests_cant": "All texts; both codecs.", "anchors": ["email-parser/src/parsing/mime/encoded_headers.rs: encoded_word"]}
{"id": "C15", "title": "White space between encoded words", "statement": "In an unstructured MIME header, white space between two adjacent encoded words disappears and white space next to ordinary text is kept.", "quantifier": "every sequence of encoded words and plain words, any folding white space between", "why_tests_cant": "The rule concerns every sequence; it relies on a flag carried along the loop.", "anchors": ["email-parser/src/parsing/common.rs: mime_unstructured"]}
{"id": "C16", "title": "No byte of an accepted message is lost", "statement": "If a message is accepted, its bytes are exactly the concatenation of the source texts of the returned fields, in order, each ending in CRLF, followed either by nothing (no body) or by CRLF and the body bytes.", "quantifier": "every accepted message, every feature configuration", "why_tests_cant": "A statement about every accepted input, including those mixing recognised, malformed and unknown headers.", "anchors": ["email-parser/src/parsing/message.rs: parse_message", "email-parser/src/parsing/fields.rs: fields"]}
{"id": "C17", "title": "Body acceptance and value", "statement": "Without mime, a body is accepted iff it is a CRLF-separated sequence of lines, each of at most 998 characters in 1..127 other than CR and LF, and it is then returned verbatim; a message that ends with its headers has no body.", "quantifier": "every byte string after the headers", "why_tests_cant": "The line limit and the lone CR/LF cases range over unbounded bodies.", "anchors": ["email-parser/src/parsing/message.rs: body, check_line, line, body_lines"]}
{"id": "C18", "title": "At most one occurrence of singular headers", "statement": "Email::parse rejects a message in which From, Sender, Subject, Date, To, Cc, Bcc, Message-ID, In-Reply-To, References, Reply-To (or, with mime, a MIME header) is recognised twice, with DuplicateHeader naming the first one that repeats.", "quantifier": "every list of parsed fields in every order", "why_tests_cant": "Orders and multiplicities of headers are unbounded.", "anchors": ["email-parser/src/email.rs: Email::parse"]}
{"id": "C19", "title": "Mandatory headers and sender inference", "statement": "An accepted message has exactly one From and one Date; the sender is the Sender header if there is one, else the only author; without either, and with several or no author, the message is rejected with MissingHeader.", "quantifier": "every list of parsed fields", "why_tests_cant": "Ranges over all field combinations.", "anchors": ["email-parser/src/email.rs: Email::parse"]}
{"id": "C20", "title": "Fields are assigned faithfully", "statement": "Every component of an accepted Email is the value of the field of that kind in the message, or None/empty if there is none; comments, keywords, traces and unknown fields are all kept, in order of appearance.", "quantifier": "every list of parsed fields", "why_tests_cant": "Ranges over all field sequences; swapped assignments show only on combinations.", "anchors": ["email-parser/src/email.rs: Email::parse"]}
{"id": "C21", "title": "Header names are case insensitive", "statement": "Changing the case of letters in the name of a recognised header changes nothing in what it is parsed to.", "quantifier": "every header text, every capitalisation", "why_tests_cant": "Exponentially many capitalisations.", "anchors": ["email-parser/src/parsing/combinators.rs: tag_no_case", "email-parser/src/parsing/fields.rs"]}
{"id": "C22", "title": "Malformed recognised headers are kept as unknown fields", "statement": "A header line whose value is not acceptable for its name is not dropped: if it is an acceptable unstructured header it appears in unknown_fields with its name and its text.", "quantifier": "every header line", "why_tests_cant": "All malformations.", "anchors": ["email-parser/src/parsing/fields.rs: fields, unknown"]}
{"id": "C23", "title": "Parsed dates are in range", "statement": "Every date returned has day <= 31, year >= 1990 and < 2^64, hour <= 23, minute <= 59, second <= 60, zone minutes <= 59 and zone hours <= 99. A stronger reading, day >= 1, is false of the code: day 0 is accepted.", "quantifier": "every input accepted as a date", "why_tests_cant": "All inputs.", "anchors": ["email-parser/src/parsing/time.rs"]}
{"id": "C24", "title": "Dates round trip", "statement": "Writing any date-time with components in range in the RFC 5322 form, with or without day name and seconds, any capitalisation of names, and parsing it gives back the same date-time.", "quantifier": "every date-time in range, every 64-bit year from 1990", "why_tests_cant": "The year alone has 2^64 values.", "anchors": ["email-parser/src/parsing/time.rs: date_time"]}
{"id": "C25", "title": "Accepted dates conform to RFC 5322", "statement": "Whatever text is accepted as a date matches the date-time grammar and the returned numbers are those written in the text.", "quantifier": "every input accepted as a date", "why_tests_cant": "All inputs.", "anchors": ["email-parser/src/parsing/time.rs: date_time"]}
{"id": "C26", "title": "Accepted addresses conform to RFC 5322", "statement": "Whatever text is accepted as a mailbox, group, address list, message identifier or path matches the RFC 5322 grammar, and the returned names, local parts and domains are those the grammar assigns to that text.", "quantifier": "every input accepted by the address parsers", "why_tests_cant": "All inputs; the grammar is recursive.", "anchors": ["email-parser/src/parsing/address.rs"]}
{"id": "C27", "title": "Addresses round trip", "statement": "Any mailbox (display-name words, local part and domain of allowed characters) or list of mailboxes written in canonical form, quoting what needs it, is parsed back to the same value.", "quantifier": "every mailbox, every list of mailboxes", "why_tests_cant": "Unbounded names and lists.", "anchors": ["email-parser/src/parsing/address.rs: mailbox_list, address_list, group"]}
{"id": "C28", "title": "Quoted strings round trip", "statement": "Any text of printable ASCII and blanks, written between double quotes with '\"' and '\\' escaped (and any other character optionally escaped), is read back exactly.", "quantifier": "every such text, every choice of optional escapes", "why_tests_cant": "Escapes and blank runs at every position.", "anchors": ["email-parser/src/parsing/quoted_string.rs: quoted_string"]}
{"id": "C29", "title": "Comments and folding do not change values", "statement": "Comments (nested to any depth, with quoted pairs) and folding white space around atoms, dotted atoms, quoted strings and message identifiers do not change the value read.", "quantifier": "every well-formed comment/folding text around every token", "why_tests_cant": "Comments nest without bound.", "anchors": ["email-parser/src/parsing/whitespaces.rs: cfws", "email-parser/src/parsing/common.rs: atom, dot_atom"]}
{"id": "C30", "title": "Unstructured values are the unfolded text", "statement": "The value of an unstructured header (subject, comments, unknown headers) is its text with line folds removed and trailing blanks dropped, nothing else; the header is accepted iff it has that shape.", "quantifier": "every header text", "why_tests_cant": "All texts and folding positions.", "anchors": ["email-parser/src/parsing/common.rs: unstructured"]}
{"id": "C31", "title": "Message identifiers round trip", "statement": "Any identifier pair (dotted atom left; dotted atom or literal right) and any nonempty list of them, written in angle brackets, is read back exactly, in order.", "quantifier": "every identifier list", "why_tests_cant": "Unbounded lists.", "anchors": ["email-parser/src/parsing/address.rs: message_id", "email-parser/src/parsing/fields.rs: references, in_reply_to"]}
{"id": "C32", "title": "Returned strings are valid text", "statement": "Every string in an accepted Email is valid UTF-8, and pure ASCII without mime.", "quantifier": "every accepted message", "why_tests_cant": "Soundness of unchecked conversions over all inputs.", "anchors": ["email-parser/src/string.rs: from_slice", "email-parser/src/parsing/combinators.rs: take_while", "email-parser/src/email.rs"]}
{"id": "C33", "title": "Multipart splitting inverts joining", "statement": "A multipart body assembled from any list of parts that do not contain the delimiter is split into exactly those parts, in order, whatever preamble (without delimiter) and epilogue (without delimiter) surround them.", "quantifier": "every boundary, every list of parts, preamble and epilogue free of the delimiter", "why_tests_cant": "Unbounded lists and contents; boundary-like text inside parts.", "anchors": ["email-parser/src/parsing/mime/multipart.rs: parse_multipart"]}
{"id": "C34", "title": "The closing delimiter ends the multipart", "statement": "Nothing after the closing delimiter influences the parts. (False of the code: an opening delimiter line in the epilogue changes the outcome. What holds: an epilogue is ignored if and only if no delimiter line occurs in it, where a delimiter may share the CRLF of the closing delimiter.)", "quantifier": "every text before the closing delimiter that does not end in a boundary line, every epilogue", "why_tests_cant": "Needs an adversarial epilogue.", "anchors": ["email-parser/src/parsing/mime/multipart.rs: parse_multipart"]}
{"id": "C35", "title": "Parameters do not depend on hash-map order", "statement": "The parameters obtained from a Content-Type or Content-Disposition header are the same whatever order the hash map of continuations is iterated in.", "quantifier": "every parameter list, every iteration order of every hash map", "why_tests_cant": "The order is random per process; a test sees one.", "anchors": ["email-parser/src/parsing/mime/percent_encoding.rs: collect_parameters"]}
{"id": "C36", "title": "Parameter continuations are reassembled in index order", "statement": "A parameter split into segments name*0, name*1, ... given in any order and any number up to 256 yields the concatenation of the decoded segments in index order; a plain parameter yields its value, the last occurrence winning.", "quantifier": "every splitting and order of segments", "why_tests_cant": "Permutations of segments are unbounded.", "anchors": ["email-parser/src/parsing/mime/percent_encoding.rs: collect_parameters", "email-parser/src/parsing/mime/mime_fields.rs: parameter"]}
{"id": "C37", "title": "Single extended parameters are decoded", "statement": "A parameter written name*=charset'lang'percent-encoded is decoded per RFC 2231. (False of the code: without an index the raw text is returned.)", "quantifier": "every such parameter", "why_tests_cant": "Not covered by any test.", "anchors": ["email-parser/src/parsing/mime/percent_encoding.rs: collect_parameters"]}
{"id": "C38", "title": "MIME version numbers are exact", "statement": "MIME-Version major.minor with both numbers at most 255 is read exactly; a larger number is never accepted wrapped around.", "quantifier": "every digit string", "why_tests_cant": "All digit strings.", "anchors": ["email-parser/src/parsing/mime/mime_fields.rs: mime_version"]}
{"id": "C39", "title": "MIME defaults", "statement": "A message or part without an acceptable Content-Type is text/plain with charset us-ascii, and without a transfer encoding is read as 7bit.", "quantifier": "every message or part without those headers", "why_tests_cant": "Ranges over all other content.", "anchors": ["email-parser/src/email.rs: Email::parse", "email-parser/src/parsing/mime/entity.rs: header_part"]}
{"id": "C40", "title": "The body cannot influence the headers", "statement": "The fields of an accepted message are determined by the bytes up to and including the first empty line: replacing the body by any other acceptable body leaves all fields unchanged.", "quantifier": "every header block, every pair of bodies", "why_tests_cant": "Quantifies over all pairs of bodies (header injection).", "anchors": ["email-parser/src/parsing/fields.rs: fields", "email-parser/src/parsing/message.rs: parse_message"]}
{"id": "C41", "title": "RFC 5322 completeness of structured headers", "statement": "Every header conforming to the (non-obsolete) RFC 5322 grammar is recognised as such. (False of the code: a blank before the CRLF of a From header makes it unrecognised. True: exactly the headers of a stated, smaller grammar are recognised, with exactly the value of that grammar.)", "quantifier": "every header text, every build", "why_tests_cant": "Needs the whole grammar.", "anchors": ["email-parser/src/parsing/whitespaces.rs: fws", "email-parser/src/parsing/fields.rs: from"]}
{"id": "C42", "title": "Disabling a header feature only loses structure", "statement": "A message accepted with a header feature enabled is still accepted when the feature is disabled, exactly if no header whose name is then unknown contains a line of blanks only (false of the code without that condition, e.g. for an empty folded Bcc). The header is then an unknown field, and everything the remaining features interpret stays the same.", "quantifier": "every message and feature set", "why_tests_cant": "Quantifies over pairs of builds.", "anchors": ["email-parser/src/parsing/fields.rs: fields, unknown", "README.md: Pay for what you use"]}
{"id": "C43", "title": "Zero-copy concatenation is sound", "statement": "Joining two string slices gives the concatenation of their contents whatever their addresses; when the result is a borrowed slice it covers exactly the adjacent memory of the operands, and two slices adjacent in the input are joined without allocation.", "quantifier": "every memory content, every pair of slices or owned strings", "why_tests_cant": "Depends on addresses, which tests do not control.", "anchors": ["email-parser/src/string.rs: add_string, add_str"]}
{"id": "C44", "title": "Error values", "statement": "The errors of Email::parse without mime are exactly: the two CRLF tag errors of the body, DuplicateHeader of a singular header and MissingHeader of From, Date or Sender.", "quantifier": "every rejected message", "why_tests_cant": "All rejected inputs.", "anchors": ["email-parser/src/error.rs", "email-parser/src/email.rs", "email-parser/src/parsing/message.rs"]}
{"id": "C45", "title": "What an entity is parsed to", "statement": "A raw entity accepted by the entity parser is exactly what its content type, parameters and decoded value prescribe (text decoded with its charset, multipart split at its boundary, anything else kept raw), and a part accepted by the raw entity parser is made of its header lines, a blank line and its body, every component coming from the header of that kind.", "quantifier": "every raw entity and every part", "why_tests_cant": "All content types, parameters and bodies.", "anchors": ["email-parser/src/parsing/mime/entity.rs", "email-parser/src/mime.rs"]}
{"id": "C46", "title": "No header injection through returned strings", "statement": "No string of an accepted Email contains a line end or another control character, so it can be written back into a header. (True without mime, and for every address, identifier, name, type and file name in all builds; false of the code for texts with mime, as an encoded word can stand for a line end.)", "quantifier": "every accepted message", "why_tests_cant": "Needs all messages and all strings of the result.", "anchors": ["email-parser/src/email.rs", "email-parser/src/parsing/mime/encoded_headers.rs: encoded_word", "email-parser/src/parsing/fields.rs"]}
{"id": "C47", "title": "Exactly which emails are returned", "statement": "Without mime, the emails that parsing can return are exactly those whose fields satisfy simple conditions on their values: printable local parts, domains of domain characters, names of at least one printable word, dates in range, texts on one line without a blank at the end, identifiers with a dotted left part, non-empty address lists, fields of disabled features empty, consecutive trace blocks told apart, unknown headers with any valid name but those of the two text headers. Every such email is returned for some message, and no other is.", "quantifier": "every Email value, every build without mime", "why_tests_cant": "Needs all messages (no value outside of the set is ever returned) and all values (each one is returned for some message).", "anchors": ["email-parser/src/email.rs: Email", "email-parser/src/parsing/fields.rs", "email-parser/src/parsing/address.rs", "email-parser/src/parsing/time.rs"]}
{"id": "C48", "title": "MIME trees round trip", "statement": "A message written as a tree of texts, data and multiparts of any depth (every part with its headers in any capitalisation and folding, any transfer encoding and charset, any preamble and epilogue without delimiter) is read back as that tree when its entities are parsed recursively, and a parsed entity shows one tree only. Every tree of UTF-8 texts, arbitrary data and multiparts, with any author and any date in range, can be mailed: some message is parsed to an email whose entities show it.", "quantifier": "every tree, every message written for it, every build with mime", "why_tests_cant": "Trees have unbounded depth and width, every node can be written in infinitely many ways, and the claim needs the interplay of headers, parameters, transfer encodings, charsets and boundary splitting at every level.", "anchors": ["email-parser/src/parsing/mime/entity.rs", "email-parser/src/parsing/mime/multipart.rs", "email-parser/src/mime.rs", "email-parser/src/email.rs"]}
{"id": "C49", "title": "Headers are read independently of each other", "statement": "A block of header lines followed by the rest of a message is read as the block alone and the rest alone would be, and each header line gives one field whatever surrounds it; the only exception are the headers of trace blocks, which count at the start only. Hence headers of different names can be put in any order without any influence on the email, except that unknown headers of different names are listed in another order.", "quantifier": "every block of header lines, every permutation of it that keeps the order of headers of one name, every rest, every build", "why_tests_cant": "Unit tests parse headers one at a time or in one fixed order; whether a greedy parser of one header can be influenced by the next line (folding, look-ahead, a failed alternative) is a question about all pairs of contexts.", "anchors": ["email-parser/src/parsing/fields.rs", "email-parser/src/parsing/message.rs", "email-parser/src/email.rs"]}
{"id": "C50", "title": "Adding or removing an unknown header changes nothing else", "statement": "If a header line with a name that is not recognised is put between two header lines of a message, or between the headers and the body, then the email stays the same except that the header is added to the unknown fields at its place; if such a line is removed, the email stays the same except that it is missing there. In particular relays that add their own headers do not change anything else.", "quantifier": "every message, every position between header lines, every unknown name and value, every build", "why_tests_cant": "The claim compares two parses of unboundedly many messages, at every position; a test can only look at a few insertions.", "anchors": ["email-parser/src/parsing/fields.rs", "email-parser/src/email.rs"]}
{"id": "C51", "title": "Exactly how a multipart body is cut", "statement": "For any text at all, well-formed or not, the parts of a multipart are: the text cut from left to right at the first occurrence of each delimiter line, up to the last delimiter line; then up to the first closing delimiter after it; without what comes before the first delimiter. The multipart is read exactly if there is a boundary, such a closing delimiter, and every part is read as an entity; the result is then the entities of those parts in order.", "quantifier": "every boundary, every body text, every build", "why_tests_cant": "Tests use well-formed multiparts; what happens with delimiters that touch, repeat, lie in the epilogue, or with unclosed bodies is an unbounded family of texts.", "anchors": ["email-parser/src/parsing/mime/multipart.rs: before_boundary, before_closing_boundary, parse_multipart"]}
{"id": "C52", "title": "Without MIME, the parser is exactly a grammar", "statement": "In builds without the mime feature, a text is accepted exactly if it is a message of a stated grammar: trace blocks, then headers (each one of the grammar of its name, or else any name with unstructured text, kept as unknown), then the end or an empty line and a body, with the email's own requirements (a From, a Date, no duplicates...) met. The email returned is the one of that reading, the reading is unique, and every other text is an error. A Received header is recognised, in any build, exactly if it is one of the grammar in which every token is a word, a bracketed address or a domain.", "quantifier": "every text, every feature selection without mime", "why_tests_cant": "Both inclusions quantify over all texts; tests can only sample accepted and rejected mails, never show that nothing else is accepted or that the reading is the only one.", "anchors": ["email-parser/src/parsing/message.rs: parse_message", "email-parser/src/parsing/fields.rs: fields, received, unknown", "email-parser/src/email.rs: Email::parse"]}
{"id": "C53", "title": "With MIME, the parser is exactly a grammar too", "statement": "In release builds with the mime feature, a text is accepted exactly if it is a message of a stated grammar with an email: trace blocks, then headers (each one of the grammar of its name, where phrases with encoded words and MIME parameters are read from left to right, or else any name with unstructured text, kept as unknown), then the end or an empty line and a body. Every other text is an error, the email returned is one of that reading, and any other reading differs at most in the order of MIME parameters. A MIME header complete at a line end and followed by a folded line that is no further parameter, or keywords that end with an encoded word and are followed by a folded line that starts with no further word, make the whole mail an error.", "quantifier": "every text, every feature selection with mime, release builds", "why_tests_cant": "Both inclusions quantify over all texts; the last claim concerns every continuation of a header, of which a test picks one.", "anchors": ["email-parser/src/parsing/message.rs: parse_message", "email-parser/src/parsing/mime/mime_fields.rs: content_type, content_disposition, content_transfer_encoding, mime_version", "email-parser/src/parsing/fields.rs: fields, unknown", "email-parser/src/email.rs: Email::parse"]}
{"id": "C54", "title": "Parsing time is linear (builds without mime)", "statement": "There is one constant K such that, in every build without the mime feature and on every text, accepted or rejected, Email::parse does at most K * (length + 1) elementary operations (byte comparisons, loop turns, bytes copied); nested comments, failing alternatives and retried headers do not make it superlinear. On an accepted mail every byte is counted at least once.", "quantifier": "every build configuration without mime, every byte sequence", "why_tests_cant": "Tests and benchmarks time a few mails; a superlinear case (backtracking over comments, headers tried by up to twenty parsers) could sit in any input and no finite set of timings excludes it.", "anchors": ["email-parser/src/parsing/combinators.rs:58-273", "email-parser/src/parsing/whitespaces.rs:5-100", "email-parser/src/parsing/fields.rs:75-168", "email-parser/src/parsing/message.rs:75-116", "email-parser/src/email.rs:96-388"]}
{"id": "C55", "title": "Builds with and without overflow checks do the same, unless the former panics", "statement": "Whatever Email::parse, parse_message, RawEntity parsing, RawEntity::parse, any single header parser or a codec returns (value or error) in a build with overflow checks and debug assertions, the build of the same features without them returns as well; the only difference can be a panic. A panic of Email::parse or of the parsing of an entity requires that the text contains a Content-Type or Content-Disposition header whose parameters have a segment for each of the indexes 0 to 255 of one name, hence at least 256 semicolons; so every text with fewer semicolons (and every text without the mime feature) is read identically in both builds, and totality, the exact grammar of C53 and the independence of hash order hold for checked builds too. With that many segments a checked build is not even deterministic: for one mail the iteration order of a HashMap decides whether it returns an email or panics.", "quantifier": "for all builds (features, externals, hash orders) and all byte strings, entities", "why_tests_cant": "the test suite runs in one profile only; that no input separates the two profiles except by a panic, and which inputs can, is a statement about all inputs", "anchors": ["email-parser/src/parsing/mime/percent_encoding.rs:98-185", "email-parser/src/parsing/combinators.rs:18-56", "email-parser/src/parsing/mime/mime_fields.rs:147-359", "email-parser/src/email.rs:96-388"]}
{"id": "C56", "title": "Exactly which texts are parts, and which tree a mail stands for", "statement": "A text is read as a part of a multipart if and only if it is a sequence of headers followed by nothing, or by an empty line and a content that its transfer encoding decodes; a header being one of the grammar of Content-Transfer-Encoding, Content-Type, Content-ID, Content-Description or Content-Disposition, or any other header (MIME-Version and ill-formed ones included), kept as it is. The text is read in one way only, up to the order of parameters, and the part returned is that of the text: the last header of each kind counts. A multipart is read if and only if it has a boundary, can be cut (C51) and every piece is such a part; and parsing a part or a whole mail recursively gives a tree if and only if a recursive grammar derives that tree from the text. A part is rejected if a header with parameters is continued on the next line by anything but a parameter.", "quantifier": "for all builds with mime and without overflow checks (all features, externals, hash orders), all byte strings, all trees", "why_tests_cant": "both directions quantify over all texts, well-formed or not, and over trees of any depth", "anchors": ["email-parser/src/parsing/mime/entity.rs:7-254", "email-parser/src/parsing/mime/multipart.rs:5-95", "email-parser/src/parsing/mime/mime_fields.rs:93-359", "email-parser/src/mime.rs:5-50"]}
{"id": "C57", "title": "Why a text is refused", "statement": "Email::parse, RawEntity parsing of a part and RawEntity::parse return an error if and only if the text gives the reason of that error, and the text gives at most one reason. For mails, in this order: the text cannot be cut into headers and, unless it ends with them, an empty line; a line of the body (without mime) is too long or has a character that is no ASCII text; a singular header repeats an earlier one (the first that does); From is missing; Date is missing; Sender is missing and there is not exactly one author; the transfer encoding is unknown or the base64 body is cut short or continued after padding. For parts: the headers are not followed by an empty line, or the content does not decode. For entities: no boundary parameter, no closing delimiter after the last delimiter, the first part that is refused, or text that is not valid UTF-8.", "quantifier": "for all feature sets, externals and hash orders in builds without overflow checks (with overflow checks: for all texts with fewer than 256 semicolons), all byte strings, all errors", "why_tests_cant": "both directions quantify over all texts: that no other text gets an error, and that the first of several reasons is the one reported", "anchors": ["email-parser/src/email.rs:98-400", "email-parser/src/parsing/message.rs:41-133", "email-parser/src/parsing/mime/base64.rs:78-172", "email-parser/src/parsing/mime/entity.rs:7-254", "email-parser/src/parsing/mime/multipart.rs:77-95"]}
{"id": "C58", "title": "A header has its effect wherever it stands", "statement": "Take any accepted mail in which, after some complete header lines, there is a header that the grammar allows (in particular one that a program wrote: a date, mailboxes, message ids, keywords, an unstructured text, a content type with parameters, a transfer encoding; in any capitalisation of the name). Then the email has exactly the value of this header in the field of that name (comments, keywords and unknown headers: among others; parameters: the same map), and a transfer encoding is the one by which the body is decoded. A header that need not be there (Subject, To, Cc, Bcc, Message-ID, In-Reply-To, References, Reply-To, Comments, Keywords, unknown ones) can be added to any accepted mail that has no other of its kind, and removed from any: the mail stays accepted, and nothing but this value changes in the email.", "quantifier": "for all feature sets, externals, hash orders and build modes, all header lines before the header, all texts after it, all values and spellings of the header", "why_tests_cant": "the headers around are arbitrary: which of twenty parsers takes a header, and whether an earlier line swallows it, depends on all texts before it", "anchors": ["email-parser/src/parsing/fields.rs:75-168", "email-parser/src/email.rs:98-400", "email-parser/src/parsing/message.rs:41-133"]}
{"id": "C59", "title": "Cost of the codecs and of the search for boundaries", "statement": "Base64 is encoded and decoded in time linear in the data, and every other transfer encoding but quoted-printable is decoded in linear time. Quoted-printable (bodies, encoded words, encoding) and percent-encoded parameters take at most the square of the length, and no linear bound holds for them: every escape moves all the bytes behind it. All the searches for the parts of a multipart together take linear time if the boundary contains no CR; in general at most the product of the lengths of boundary and text, and no linear bound holds for boundaries with CRs, which percent-encoded parameters can produce.", "quantifier": "all data of any length, all environments, all charsets and encodings, all boundaries and texts; the refutations: for every constant there is an input beyond it", "why_tests_cant": "A test times a few inputs; it cannot show that a bound holds for every length, nor that no constant is large enough.", "anchors": ["email-parser/src/parsing/mime/quoted_printables.rs:7-154", "email-parser/src/parsing/mime/base64.rs:10-172", "email-parser/src/parsing/mime/percent_encoding.rs:4-96", "email-parser/src/parsing/mime/multipart.rs:5-95", "email-parser/src/parsing/mime/entity.rs:236-254"]}
{"id": "C60", "title": "Cost of parsing with mime", "statement": "With mime a whole mail is parsed in time at most cubic in its length, whatever the text, and no quadratic bound holds, even for accepted mails: every other address of a From header can be tried first as a display name that runs to the end of the header, where a long encoded word is decoded again each time. Reading one part (headers and decoding of the body) and one level of RawEntity::parse (a text, or a multipart with the headers and bodies of its parts) take at most the square of the length, and no linear bound holds for either.", "quantifier": "one constant for all builds with mime, all texts and entities on which the parser does not panic; the refutations: for every constant there is an input beyond it", "why_tests_cant": "A test times a few inputs; it cannot show that a bound holds for every length, nor that no constant is large enough; and the cubic mails are valid mails that look harmless.", "anchors": ["email-parser/src/parsing/common.rs:78-151", "email-parser/src/parsing/address.rs:68-198", "email-parser/src/parsing/mime/encoded_headers.rs:46-115", "email-parser/src/parsing/mime/percent_encoding.rs:98-190", "email-parser/src/parsing/mime/entity.rs:7-234", "email-parser/src/parsing/fields.rs:75-168"]}
{"id": "C61", "title": "Exactly which emails are returned with mime", "statement": "With mime, the emails that parsing can return satisfy simple conditions on their values: names, keywords, subject, comments and description are any UTF-8 text (encoded words may hold line breaks and control characters), addresses and dates are as without mime, the type, the subtype and the names of parameters are tokens in lower case, an unknown type does not start like a known one, a parameter is any UTF-8 text unless its name has a star, a file name of a disposition is printable ASCII, the body is any bytes, and there is always an entity and never a text body. Every such email, whose unknown headers are not MIME headers or are decoded, is returned for some message up to the order of parameters; with unrecognized-headers these are exactly the emails that are returned.", "quantifier": "every Email value, every message, every build with mime, every decoder of charsets and every order of hash maps", "why_tests_cant": "Needs all messages (no value outside of the set is ever returned) and all values (each one is returned for some message).", "anchors": ["email-parser/src/email.rs: Email", "email-parser/src/parsing/mime/mime_fields.rs", "email-parser/src/parsing/mime/encoded_headers.rs", "email-parser/src/parsing/fields.rs"]}
{"id": "C62", "title": "Zero copy: every string of an email is a slice of the mail or a copy with the right bytes, and it is copied only if it must be", "statement": "In every build, the parser that returns slices of memory returns the same emails, errors and crashes as the one that returns bytes; every borrowed string lies inside the mail, except the literals of the default content type; message ids, names of unknown headers and the body are always borrowed; if the headers contain no backslash, no folded line and (with mime) no encoded word, every text of the headers is borrowed (domains if there is no bracket). With mime, a type, subtype, disposition or parameter name is copied exactly if it has a capital letter, and the value of the mail exactly if it is decoded from base64 or quoted-printable. The text of an unstructured header is borrowed exactly if the bytes dropped from it all come first (nothing, or the line break of a fold at the beginning); the content of a quoted string exactly if nothing, a line break at the beginning or one backslash at the beginning is dropped.", "quantifier": "all memories, addresses, builds, mails; all strings of the email", "why_tests_cant": "The adjacency check in add_string compares raw addresses: tests compare the contents of strings and cannot tell a slice from a copy, nor exclude that some interleaving of folds, pairs and empty slices joins two slices that are not adjacent or leaves the buffer.", "anchors": ["email-parser/src/string.rs: add_string, add_str", "email-parser/src/parsing/quoted_string.rs", "email-parser/src/parsing/common.rs", "email-parser/src/parsing/whitespaces.rs", "email-parser/src/email.rs: Email::parse"]}
{"id": "C63", "title": "The parts of a mail are slices of it", "statement": "Parsing an entity whose value is a slice (or an owned vector) returns the same headers, parts, errors and crashes as the parser that returns bytes. The strings of a part lie inside the value of the entity it is a part of, or are literals of the default content type; so the parts of parts of a mail are slices of the mail as long as nothing on the way was decoded. The value of a part is copied exactly if its last Content-Transfer-Encoding header asks for base64 or quoted-printable; a text value is borrowed exactly if the charset is utf-8 or us-ascii, and is then the whole value of the entity. Without a backslash, folded line or encoded word in the headers of a part no text of it is copied. From an owned vector every string is copied, so none refers to it.", "quantifier": "all memories, addresses, builds with mime, entities, parts and nestings of parts", "why_tests_cant": "Tests compare contents: a slice that starts one byte early with an equal neighbour, a copy where a borrow is promised, or a borrow that outlives a drained vector all look the same to them.", "anchors": ["email-parser/src/parsing/mime/entity.rs: raw_entity, header_part, header_part_owned, entity", "email-parser/src/parsing/mime/multipart.rs: parse_multipart", "email-parser/src/mime.rs: into_owned"]}
{"id": "C64", "title": "The size of what is returned is bounded by the size of the mail", "statement": "In builds without mime, all the strings of an email and its body together have at most as many bytes as the mail, and there are at most as many strings as the mail has bytes, but for the sender, which may be a second copy of the author; so at most twice, and twice is reached up to a constant. In builds with mime, if decoding a charset makes a text at most k times longer (k at least 3), the email, the content of a part and all the parts of a multipart have at most k times the size of what they were parsed from, plus 20 bytes of default content type each; a multipart has at most a quarter as many parts as bytes; a decoded text has at most k times the size of the value. Three times is reached by quoted-printable.", "quantifier": "for all builds, mails, parts and charset decoders that expand by at most k", "why_tests_cant": "An amplification attack is one mail among all; tests only look at mails somebody thought of.", "anchors": ["email-parser/src/email.rs:88-374", "email-parser/src/parsing/mime/entity.rs:7-41", "email-parser/src/parsing/mime/quoted_printables.rs", "email-parser/src/parsing/mime/multipart.rs:77-95", "email-parser/src/parsing/mime/percent_encoding.rs"]}
{"id": "C65", "title": "Parsing all parts of a mail ends, but the parts can be exponentially larger than the mail", "statement": "Parsing every part of a mail with RawEntity::parse, then their parts and so on, ends at depth length / 8 at the latest, because delimiters use up ASCII bytes that no decoding creates. The values of all parts n levels down have at most 3^(n+1) times the bytes of the mail, and there are at most a quarter as many parts as that one level further. No polynomial bound holds: in every build with mime, there are mails whose length grows with the square of d and which contain a part of more than 3^d bytes, since a byte that quoted-printable does not allow is replaced by three such bytes at each level.", "quantifier": "for all builds with mime, mails, entities and depths; for the lower bound, for all d there is a mail", "why_tests_cant": "Tests parse a few levels of a few mails; whether recursion always ends, and how much memory it can take, is a statement about all mails.", "anchors": ["email-parser/src/mime.rs:23-30", "email-parser/src/parsing/mime/entity.rs:7-92", "email-parser/src/parsing/mime/multipart.rs:5-95", "email-parser/src/parsing/mime/quoted_printables.rs"]}
{"id": "C66", "title": "MIME headers conform to RFC 2045 and RFC 2183, but not all that conform are recognised", "statement": "Every Content-Type, Content-Transfer-Encoding and MIME-Version header that is recognised is one of RFC 2045, read as lexical tokens with comments and white space between them, and its type, subtype, mechanism, version and (without RFC 2231 extensions) parameters are those of the tokens. The same holds for a Content-Disposition header of RFC 2183 from which no date was read; with dates it fails. A conforming Content-Type or Content-Transfer-Encoding header is recognised if there is no white space around / and =, at most one comment at its end, and its type does not start with a longer known name. None of these conditions can be dropped: headers with such white space, two comments or a type like textile are not recognised, nor is the third example of RFC 2045 4.", "quantifier": "for all builds, all header texts and all texts after them; witnesses for what fails", "why_tests_cant": "A test tries single headers; conformance is about every text the parser accepts and every text the grammar of the RFC generates.", "anchors": ["email-parser/src/parsing/mime/mime_fields.rs:6-64", "email-parser/src/parsing/mime/mime_fields.rs:66-245", "email-parser/src/parsing/mime/mime_fields.rs:247-420"]}
{"id": "C67", "title": "Multipart bodies of RFC 2046", "statement": "A multipart body that follows RFC 2046, for a boundary without CR, gives exactly its parts when no delimiter is followed by padding and a line end follows the close delimiter. A padded delimiter is taken for text, so that the part after it is added to the one before it, and lost without an error if none is before it. A body whose close delimiter is padded, or that ends with it (the usual form of a nested multipart), is refused with the error 'closing boundary not found'.", "quantifier": "all boundaries without CR, all numbers of parts, parts, preambles and epilogues without delimiter lines, all paddings, all configurations; the nested counterexample in three configurations", "why_tests_cant": "RFC 2046 allows padding after any of arbitrarily many delimiters; which parts survive depends on the whole combination, and silently lost parts do not show as errors.", "anchors": ["email-parser/src/parsing/mime/multipart.rs", "email-parser/src/parsing/mime/entity.rs"]}
{"id": "C68", "title": "Trees without encoded multiparts stay small", "statement": "If, as RFC 2045 demands, no multipart of a mail has a transfer encoding that changes its text, then all parts at all levels together number at most a quarter of the bytes of the mail, the values of all leaves together have at most three times its bytes, and the values of all parts of all levels at most 3/8 of the square of its length. Parts without Content-Transfer-Encoding, or with 7bit, 8bit or binary, satisfy the condition.", "quantifier": "all mails, all depths and numbers of parts, all builds with mime", "why_tests_cant": "The bound is about trees of any depth; C65 shows that it is false without the condition, so that no finite set of samples can show it.", "anchors": ["email-parser/src/parsing/mime/multipart.rs", "email-parser/src/parsing/mime/entity.rs:1-120"]}
{"id": "C69", "title": "Error messages tell the reason", "statement": "The message displayed for a mail, a part or an entity that is refused is one of a fixed list (27 for mails, 9 for parts and entities), every message for mails is displayed for some mail, and two refusals with the same message have the same error, in whatever build: the text shown to a user tells the error and so, by C57, the reason. What is parsed into parts has a composite type; a composite type that is no multipart is a message, and such an entity is never parsed further.", "quantifier": "all mails, parts and entities, all builds including those with overflow checks", "why_tests_cant": "That no other message is ever displayed, and that the same text never hides two reasons, is a statement about all inputs and builds.", "anchors": ["email-parser/src/error.rs:9-20", "email-parser/src/email.rs:390-396", "email-parser/src/mime.rs:152-166"]}
{"id": "C70", "title": "Reading a mail with all its parts is cubic when no multipart is encoded", "statement": "There is a constant K such that, for every mail whose multiparts (at every level) are sent with an identity transfer encoding, reading the mail, then its entity, then the entities of all parts of all levels takes at most K*(1+length)^3 operations, whatever the nesting depth. Together with C65 (an encoded multipart can be larger than its parent) this separates the mails that are cheap to walk from the others.", "quantifier": "all environments whose charset decoder at most quadruples a text and that are built without debug checks, all mails, all trees of parts, all depths", "why_tests_cant": "the worst case over all nestings of multiparts is not reached by any finite set of mails, and timing a run shows nothing about other inputs", "anchors": ["email-parser/src/mime.rs:27 (RawEntity::parse)", "email-parser/src/parsing/mime/entity.rs", "email-parser/src/parsing/mime/multipart.rs", "email-parser/src/email.rs"]}
{"id": "C71", "title": "A mail whose date is in an obsolete form or before 1990 is refused for want of a date", "statement": "If a mail is accepted and its Date header is replaced by one whose value has no numeric zone (such as the named zones GMT, EST or Z of RFC 5322 4.3) or no year of at least four digits from 1990 on (two-digit years, years before 1990), the mail is refused with MissingHeader \"Date\", although a Date header is there. The same holds for a From header without an address (MissingHeader \"From\").", "quantifier": "all mails, all positions of the header, all values of the described forms, all feature sets with date (or from), release builds and builds without mime", "why_tests_cant": "tests can show single dates that are refused, not that no mail around such a header is ever accepted and that the error is always this one", "anchors": ["email-parser/src/parsing/time.rs:59-79 (year)", "email-parser/src/parsing/time.rs:139-165 (zone)", "email-parser/src/parsing/fields.rs:170 (date)", "email-parser/src/email.rs:307-309"]}
{"id": "C72", "title": "A malformed header changes nothing but the unknown headers, and a malformed Sender header makes the only author the sender", "statement": "A header that none of the readers of known headers accepts (for instance a second Date header with an obsolete date) can be added at any place to an accepted mail: the mail is still accepted and gives the same email with one more unknown header, in particular it is never reported as a duplicate. An optional header that is replaced by a malformed one (for instance a Message-ID without @) is lost and kept as an unknown header; nothing else changes. If the Sender header of an accepted mail is replaced by one without an address, the mail is still accepted and the only author is silently taken for the sender; with several authors it is refused with MissingHeader \"Sender\".", "quantifier": "all mails, all positions of the header, all malformed headers, all feature sets (with sender, for the second part), release builds and builds without mime", "why_tests_cant": "tests can show single malformed headers, not that no header that is not read can ever affect the other fields, the parts or the body of any mail", "anchors": ["email-parser/src/parsing/fields.rs:108-162 (fields)", "email-parser/src/parsing/fields.rs:204-219 (sender)", "email-parser/src/email.rs:300-322"]}
{"id": "C73", "title": "What becomes of a mail that is cut off", "statement": "A mail cut inside of a line of its headers is always refused, with the error that headers must be followed by a CRLF sequence. A mail cut between two headers is either refused for want of From, Date or Sender or accepted with a part of what the whole mail gives: the same authors and date, each optional value there or absent, beginnings of the lists; only the sender can differ, being then the only author. Cut after the last header, all headers are there and the body is absent or empty. Without mime, a mail cut in the body is accepted with the same headers and the shorter body, unless the cut is between CR and LF, where it is refused. A cut in a folded header after a line end can change the value of the header without notice. A multipart cut before the end of its first closing delimiter is refused; one with further delimiters after a closing delimiter can be cut there and is accepted with fewer parts.", "quantifier": "all mails, all positions of the cut in the headers outside of folded headers, all positions in the body without mime, all feature sets", "why_tests_cant": "tests cut single mails at single positions; that no position inside of a line is ever accepted and that nothing but a part of the email is returned concerns all mails and all positions", "anchors": ["email-parser/src/parsing/message.rs:75-108 (body)", "email-parser/src/parsing/message.rs:110-133 (parse_message)", "email-parser/src/parsing/fields.rs:108-162 (fields)", "email-parser/src/email.rs:306-322"]}
{"id": "C74", "title": "Whatever the headers are, a mail in lines is refused only for what is missing or repeated", "statement": "Without the mime feature, take any sequence of header lines, each with a name of printable characters and a text in printable lines none of which is blank, the first of them not a trace header when the trace feature is on, followed by nothing or by an empty line and a body in lines. The mail is accepted, or it is refused because From, Date or Sender is missing, or it is refused because of a header whose name two lines do carry. There is no other error. If no line at all is a trace header then, an accepted mail stays accepted when further such lines, with names not used before, are put after its headers, and in every configuration no header line of an accepted mail is lost: each is a header of the grammar whose value the email shows. With the mime feature and any body there is one more error, for a body that its Content-Transfer-Encoding header does not allow, provided the headers whose parser can stop at a fold (MIME-Version, Content-Type, Content-Transfer-Encoding, Content-Disposition, Keywords) are not folded; folded, they can stop the parser in the middle of a well formed mail. Under the same conditions a part of a multipart that is made of such lines is refused only for a content that its Content-Transfer-Encoding header does not allow: nothing is mandatory in a part, and its headers can be repeated. A multipart body of RFC 2046, without padding after its delimiters, whose parts are all of this kind is read with exactly as many parts, or refused because of the content of a part that has such a header.", "quantifier": "all configurations, all sequences of header lines of any length and with any text, all bodies in lines, all added lines", "why_tests_cant": "A malformed value can be anything and stand in any header; tests show a few malformed headers, not that none of them stops the parser somewhere in its line.", "anchors": ["email-parser/src/parsing/fields.rs:108-162 (fields)", "email-parser/src/parsing/message.rs:75-133 (body, parse_message)", "email-parser/src/email.rs:306-322", "email-parser/src/parsing/mime/entity.rs:7-41 (raw_entity)", "email-parser/src/parsing/mime/entity.rs:133-234 (header_part)", "email-parser/src/parsing/mime/multipart.rs:77-95 (parse_multipart)"]}
{"id": "C75", "title": "No lone carriage return or line feed is accepted in headers, nor, without mime, anywhere", "statement": "In the headers of an accepted mail, which reach up to its first empty line, every CR is followed by a LF, every LF is preceded by a CR, and all other bytes are printable ASCII characters or blanks. Without the mime feature the same pairing holds for the whole mail, whose bytes are all between 1 and 127; so no variant of the end-of-data marker of SMTP other than CRLF.CRLF is in an accepted mail. A lone CR, a lone LF or a foreign byte before the first empty line makes the parser refuse the mail with the error that headers must be followed by CRLF, as does a mail with Unix line ends. The headers of the parts of a multipart are treated in the same way. (With the mime feature, bodies may hold lone line feeds.)", "quantifier": "all configurations, all byte strings", "why_tests_cant": "The bytes can be anywhere in any header, in comments, quoted strings, folds or unknown headers; tests try some places.", "anchors": ["email-parser/src/parsing/whitespaces.rs", "email-parser/src/parsing/character_sets.rs", "email-parser/src/parsing/fields.rs:75-168 (fields)", "email-parser/src/parsing/message.rs:75-133 (body, parse_message)"]}
{"id": "C76", "title": "A mail in lines is read line by line, and its unknown headers are the lines left over", "statement": "Without the mime feature, take header lines, each with a name of printable characters and a text in printable lines none of which is blank, the first of them not a trace header when the trace feature is on, followed by nothing or by an empty line and a body in lines. The mail is parsed to an email exactly if each line, taken on its own, is a header (one of the grammar of its name or else an unknown one), as many headers as lines, and the email is the one of these headers and this body. The unknown headers of the email are exactly the lines that are no header of the grammar of their name, in the order of the lines, with the names as they are written and the texts unfolded; trace headers after the first line are among them. Lines that are the same header can be put for each other without any effect. With the mime feature, in builds without overflow checks, the same holds for any body, with the grammar of that feature and up to the order of parameters, provided the headers whose parser can stop at a fold (see C74) are not folded. Under these conditions a part of a multipart is read line by line too: it is made of one header for each of its lines and of its content, and every such reading with a content that can be decoded is accepted.", "quantifier": "all configurations (with mime: without overflow checks), all sequences of such header lines of any length, all bodies in lines, all emails", "why_tests_cant": "The parser has no notion of lines: each header parser decides where it stops, and a later header is read from wherever the one before it stopped. That this never joins two lines or cuts one concerns every combination of headers.", "anchors": ["email-parser/src/parsing/fields.rs:108-162 (fields)", "email-parser/src/parsing/fields.rs:589-608 (unknown)", "email-parser/src/parsing/message.rs:75-133 (body, parse_message)", "email-parser/src/email.rs:300-322", "email-parser/src/parsing/mime/entity.rs:7-41 (raw_entity)", "email-parser/src/parsing/mime/entity.rs:133-234 (header_part)"]}
