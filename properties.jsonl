{"id": "C01", "title": "Parsing any rule text terminates without a crash", "statement": "Parse on any byte string, with any contents of the files it includes, returns either a list of rules or an error; it never panics (index out of range, consuming an error token, 'should be impossible') and never loops.", "quantifier": "every byte string given to Parse, every file system contents, every bound on the number of simultaneously open files", "why_tests_cant": "Inputs are unbounded byte strings; a panic in one connection goroutine kills the whole server, so a single missed input matters.", "anchors": ["rparse.go:Parse", "rparse.go:parser.consume", "rparse.go:pTerm", "rlex.go:lexer.run", "rlex.go:lexWord"]}
{"id": "C02", "title": "The token stream has exactly one terminator, at the end", "statement": "For every input the lexer emits a finite sequence of items, the last item is an EOF or a lexing error, and no earlier item is an EOF or an error; item positions never decrease and never exceed the input length, and every unquoted item's text is exactly the input bytes at its position.", "quantifier": "every byte string", "why_tests_cant": "Unbounded inputs; depends on interplay of six lexer states.", "anchors": ["rlex.go:lex", "rlex.go:lexer.run", "rlex.go:lexLineStart", "rlex.go:lexLineRunning", "rlex.go:lexSpecial", "rlex.go:lexWord", "rlex.go:lexQuote", "rlex.go:lexComment"]}
{"id": "C03", "title": "Quoted strings can carry any bytes", "statement": "Writing any byte string between double quotes, with each quote and backslash preceded by a backslash, yields exactly one value item holding that byte string (newlines, commas, parentheses and whitespace included).", "quantifier": "every byte string, every context following the quoted string", "why_tests_cant": "Round-trip law over unbounded strings.", "anchors": ["rlex.go:lexQuote"]}
{"id": "C04", "title": "Layout does not change rules", "statement": "Comments, blank lines, extra spaces and tabs between words, and backslash-newline continuations between words do not change the sequence of item types and values, hence not the parsed rules.", "quantifier": "every input text and every place where such layout may be inserted", "why_tests_cant": "Quantifies over all texts and insertion points.", "anchors": ["rlex.go:skipWhitespace", "rlex.go:lexComment", "rlex.go:lexLineStart", "rlex.go:lexLineRunning"]}
{"id": "C05", "title": "A comma may not be followed by whitespace or end of line", "statement": "An option list with a comma followed by a space, tab, newline or end of file is always a lexing error, so the whole rule text is refused.", "quantifier": "every rule text containing such a comma outside quotes and comments", "why_tests_cant": "All positions and contexts of the comma.", "anchors": ["rlex.go:lexSpecial"]}
{"id": "C06", "title": "The parser accepts exactly the documented grammar", "statement": "On every token sequence the parser returns an expression/rule exactly when the token sequence derives from the documented grammar (rule, rclause, andl, orl, term, with, wterm), and the result is the derivation's tree; otherwise it returns an error.", "quantifier": "every token sequence", "why_tests_cant": "Soundness and completeness over an infinite language of arbitrarily nested terms.", "anchors": ["rparse.go:pTerm", "rparse.go:pOrl", "rparse.go:pAndl", "rparse.go:pWith", "rparse.go:pWClause", "rparse.go:pRClause", "rparse.go:pRule", "rparse.go:pFile"]}
{"id": "C07", "title": "Grouping is unambiguous: 'or' binds tighter than a plain series and 'not' tighter than 'or'", "statement": "Every text has at most one reading as a rule list; 'a or b c' always means '(a or b) and c', 'not a or b' means '(not a) or b', parentheses override this.", "quantifier": "all operand terms a, b, c", "why_tests_cant": "Over all operands and all nestings.", "anchors": ["rparse.go:pOrl", "rparse.go:pAndl", "rparse.go:pNot", "rparse.go:pParen"]}
{"id": "C08", "title": "Printing a rule and reparsing it gives the same rule", "statement": "For every rule that Parse can return whose arguments are plain words and whose with-values are not empty and have no quote or backslash, Parse(rule.String()) succeeds and returns exactly one rule equal to the original, and printing that gives the same text. For other arguments (spaces, quotes, empty) this fails: a rule with a from, to, helo or host argument survives exactly when the argument is a word.", "quantifier": "every rule AST, arbitrarily nested", "why_tests_cant": "Round trip over an infinite set of ASTs; the test suite samples ~40.", "anchors": ["rnodes.go:Rule.String", "rnodes.go:RClause.String", "rnodes.go:Option.String", "rnodes.go:optsReverse", "rparse.go:Parse"]}
{"id": "C09", "title": "A rule is never run before its information is available", "statement": "For every parsed rule the required phase is exactly the latest phase needed by any of its match operators (from/from-has/source/tls/dbl from: MAIL FROM; to/to-has: RCPT TO; helo/helo-has/dbl helo: HELO); a rule with an explicit phase earlier than that is a parse error.", "quantifier": "every rule text that parses", "why_tests_cant": "Over all nestings and clause combinations.", "anchors": ["rparse.go:minReq", "rparse.go:pTerm", "rparse.go:pRule"]}
{"id": "C10", "title": "With clauses are well formed in every accepted rule", "statement": "In every accepted rule every set-with clause has at least one with option, options are only message, note, savedir, tls-opt and make-yakker, tls-opt is 'off' or 'no-client', a note never contains a newline, and an option with a nonempty value is never given twice in a clause.", "quantifier": "every rule text that parses", "why_tests_cant": "Over all accepted texts.", "anchors": ["rparse.go:pWClause", "rparse.go:pWith", "rparse.go:pRClause"]}
{"id": "C11", "title": "Include splices the included rules in place and self-inclusion is an error", "statement": "A rules file containing 'include F' yields the rules before it, then F's rules, then the rest; any failure to load or parse F makes the whole file fail; a file that (transitively) includes itself always fails, it never yields rules and never recurses without bound.", "quantifier": "every file tree, every nesting depth", "why_tests_cant": "Unbounded nesting, cyclic graphs.", "anchors": ["rparse.go:pInclude", "rparse.go:pFile", "sinksmtp.go:loadRules"]}
{"id": "C12", "title": "Rule loading is all or nothing", "statement": "For each connection the rules in force are either all base rules followed by all rules of all rule files in order, or (if any file is unreadable or fails to parse) exactly the single rule 'stall all'.", "quantifier": "every list of rule files and every file contents", "why_tests_cant": "All combinations of good and bad files.", "anchors": ["sinksmtp.go:setupRules", "sinksmtp.go:accumRules", "sinksmtp.go:loadRules"]}
{"id": "C13", "title": "Broken rules mean 4xx to everything", "statement": "When the rules in force are 'stall all', every EHLO/HELO, every MAIL FROM with a nonempty address, every RCPT TO, DATA and message gets a temporary failure and nothing is ever accepted except MAIL FROM:<> (whose stall is deferred to RCPT TO) .", "quantifier": "every session history", "why_tests_cant": "Over all command histories.", "anchors": ["sinksmtp.go:genStallRules", "sinksmtp.go:decider", "rules.go:Decide"]}
{"id": "C14", "title": "Command line options become the documented rules, ahead of rule files", "statement": "The standard rules, -M, -fromreject, -toaccept and -heloreject translate to exactly the rules listed in the documentation, in that order, for every file name without special characters, and are checked before rules of -r files.", "quantifier": "all option combinations and all file names made of ordinary characters", "why_tests_cant": "File names are unbounded strings.", "anchors": ["sinksmtp.go:buildRules", "doc.go"]}
{"id": "C15", "title": "Parse errors name the right line and column", "statement": "The line and character reported for any parse or lexing error are 1 plus the number of newlines before the offending item and 1 plus the distance from the last of these newlines.", "quantifier": "every erroneous input", "why_tests_cant": "All inputs and positions.", "anchors": ["rlex.go:lineInfo", "rparse.go:genError", "rparse.go:posError", "rparse.go:lineError"]}
{"id": "C16", "title": "Address patterns mean what the documentation says", "statement": "An address matches a pattern exactly when: the lower-cased address equals the pattern; or the address is null and the pattern is '<>'; or the address is 'local' or 'local@dom' and the pattern is 'local@'; or the address is 'local@dom' and the pattern is '@dom', '@', or '@.d' where dom is d or a subdomain of d. Local and domain split at the first '@' and both are nonempty.", "quantifier": "every address and every pattern", "why_tests_cant": "Both strings are unbounded; includes termination of the subdomain loop.", "anchors": ["rules.go:matchAddress", "rules.go:sDotIter.Next"]}
{"id": "C17", "title": "Addresses starting or ending with '@' match only a literally equal pattern", "statement": "The documentation says no pattern matches an address that starts or ends with '@'; the code matches exactly the literal equal pattern and nothing else.", "quantifier": "every address with a leading or trailing '@' and every pattern", "why_tests_cant": "All strings.", "anchors": ["rules.go:matchAddress", "doc.go"]}
{"id": "C18", "title": "Hostname patterns mean what the documentation says", "statement": "A nonempty hostname matches a pattern exactly when the lower-cased name, without its trailing dot unless the pattern ends in a dot, equals the pattern, or the pattern is '.d' and the name is d or a subdomain of d.", "quantifier": "every hostname and pattern", "why_tests_cant": "Both strings unbounded.", "anchors": ["rules.go:matchHost"]}
{"id": "C19", "title": "Matching ignores letter case", "statement": "Changing the case of ASCII letters in an address, hostname, or (literal or file) pattern never changes whether from/to/helo/host/source match.", "quantifier": "all strings and all case changes", "why_tests_cant": "All strings.", "anchors": ["rules.go:matchAddress", "rules.go:matchHost", "rules.go:getMatchList", "sinksmtp.go:readList"]}
{"id": "C20", "title": "ip rules match exactly the listed address or netblock", "statement": "'ip X' matches a client exactly when X is an IP address equal to the client's IP or a CIDR block containing it, for a client whose address text is a plain IP. For a client address that is not a plain IP (an IPv6 address with a zone) every CIDR matches.", "quantifier": "every client address and every pattern", "why_tests_cant": "All 2^128 addresses and all prefix lengths.", "anchors": ["rules.go:matchIp", "rparse.go:pIPArg"]}
{"id": "C21", "title": "Address attributes", "statement": "noat, unqualified, route, garbage, quoted are decided by the documented lexical criteria; resolves/baddom/unknown are mutually exclusive and only ever defined for addresses with none of noat, unqualified, garbage, route; the null address has no attribute.", "quantifier": "every address and every DNS state", "why_tests_cant": "All strings and DNS outcomes.", "anchors": ["rules.go:getAddrOpts", "rnodes.go:oBad"]}
{"id": "C22", "title": "'bad' attribute composition", "statement": "'from-has bad' is equivalent to unqualified,route,noat,garbage. The documentation says noat,quoted,unqualified,garbage (everything except route); the code includes route and excludes quoted.", "quantifier": "every address", "why_tests_cant": "All strings.", "anchors": ["rnodes.go:oBad", "doc.go"]}
{"id": "C23", "title": "HELO attributes", "statement": "Exactly one of helo/ehlo always holds; none holds exactly for an empty name, bogus exactly for '.', nodots exactly when the name has neither '.' nor ':' (or is '.'); bareip/properip exactly for IP text bare/in brackets and never both; with known client and server addresses, exactly one of remip, myip, otherip holds for an IP name and none for other names.", "quantifier": "every HELO name and command", "why_tests_cant": "All strings.", "anchors": ["rules.go:heloGetter"]}
{"id": "C24", "title": "Reverse DNS attributes", "statement": "Exactly one of nodns/exists holds; noforward/inconsistent hold exactly when such names exist; good holds exactly when none of nodns, noforward, inconsistent does.", "quantifier": "every reverse DNS result", "why_tests_cant": "All result sets.", "anchors": ["rules.go:dnsGetter"]}
{"id": "C25", "title": "Pattern files contain exactly their newline-terminated entries", "statement": "Loading a pattern file yields, in order, the trimmed lower-cased text of each newline-terminated line that is not blank or a comment; a final line without newline is silently dropped; a read error yields no entries at all.", "quantifier": "every file contents", "why_tests_cant": "Unbounded file contents.", "anchors": ["sinksmtp.go:readList", "sinksmtp.go:loadList"]}
{"id": "C26", "title": "A rule that consults an empty or missing file never matches", "statement": "If evaluating a rule consults a pattern file that is missing, unreadable or empty, the rule does not match, even under 'not' or 'or' or through another clause; if the operator is not reached because of short-circuiting, the file has no influence.", "quantifier": "every expression, file state and context", "why_tests_cant": "All nestings of boolean operators.", "anchors": ["rnodes.go:MatchN.Eval", "rnodes.go:Rule.check", "rules.go:Decide"]}
{"id": "C27", "title": "Within one connection every pattern file has one fixed value", "statement": "Each pattern file is read at most once per connection, and all rule evaluations of the connection see the value of that read, whatever happens to the file meanwhile.", "quantifier": "every session history and every sequence of changes to the file system", "why_tests_cant": "All interleavings of external changes.", "anchors": ["rules.go:getMatchList", "rules.go:newContext"]}
{"id": "C28", "title": "DNS blocklist lookups", "statement": "'dnsbl D' is true exactly when the name built from the reversed octets of the client's IPv4 address followed by D has an address; it is false for IPv6 or unknown clients; a successful lookup is asked at most once per connection; a hit list never has duplicates.", "quantifier": "every client address and DNS state", "why_tests_cant": "All addresses and DNS histories.", "anchors": ["rnodes.go:DNSblN.Eval", "rules.go:getDnsblRes", "rules.go:addDnsblHit"]}
{"id": "C29", "title": "Domain blocklist lookups check every selected name", "statement": "'dbl SRCS D' is true exactly when at least one of the selected names (HELO name, all reverse DNS names without trailing dot, MAIL FROM domain if well formed) prefixed to D has an address; the iteration order is irrelevant to the result.", "quantifier": "every source selection, context, DNS state and map iteration order", "why_tests_cant": "Random map order and all contexts.", "anchors": ["rnodes.go:DblNode.Eval"]}
{"id": "C30", "title": "Mail domain validity", "statement": "A domain is good/tempfail/bad by the documented rules: temporary MX failure gives tempfail; no MX falls back to the address check; any MX '.' or 'localhost.' makes it bad whatever the other MXes are; otherwise the best result of the MX targets counts. The verdict does not depend on the order of MX records, and a host is good only if it has an address and all of them are global unicast and not private.", "quantifier": "every DNS answer", "why_tests_cant": "All MX sets and orders, all addresses.", "anchors": ["mxresolve.go:ValidDomain", "mxresolve.go:checkIP", "mxresolve.go:isTemporary"]}
{"id": "C31", "title": "Reverse DNS verification", "statement": "Every PTR name lands in exactly one of verified, nofwd, inconsist, in sorted order; it is verified exactly when a forward lookup succeeds and includes the client IP.", "quantifier": "every DNS answer", "why_tests_cant": "All DNS answers.", "anchors": ["rdns.go:LookupAddrVerified"]}
{"id": "C32", "title": "Boolean operators", "statement": "In a fixed state of files and DNS, a series is the conjunction, 'or' the disjunction, 'not' the negation, 'all' is true, and source X is host X or helo X or from @X; evaluation order and caching never change the truth value.", "quantifier": "every expression and context", "why_tests_cant": "All nestings and cache states.", "anchors": ["rnodes.go:AndL.Eval", "rnodes.go:OrN.Eval", "rnodes.go:NotN.Eval", "rnodes.go:matchSource.Eval"]}
{"id": "C33", "title": "The first eligible matching rule decides", "statement": "The action for a phase is that of the first rule, in rule order, which is not set-with, is eligible in the phase and matches; if there is none there is no result and the command is accepted.", "quantifier": "every rule list, phase, context", "why_tests_cant": "All rule lists.", "anchors": ["rules.go:Decide"]}
{"id": "C34", "title": "Phase eligibility", "statement": "A rule without explicit phase is checked in every phase from the one it requires on; a rule with an explicit phase is checked in that phase only.", "quantifier": "every rule and phase", "why_tests_cant": "All rules and histories.", "anchors": ["rules.go:Decide"]}
{"id": "C35", "title": "With options: the last matching setter wins", "statement": "After a decision the value of a with option is the one of the last rule, among the matching rules up to and including the deciding one, whose matching clause sets it; options of rules that did not match never leak, nor do options from earlier commands.", "quantifier": "every rule list and context", "why_tests_cant": "All rule lists.", "anchors": ["rules.go:Decide", "rnodes.go:Rule.check"]}
{"id": "C36", "title": "Compact form: the first matching clause is used", "statement": "A rule with several clauses matches exactly when some clause does (with no missing file consulted before), and only the options of the first matching clause are set.", "quantifier": "every rule", "why_tests_cant": "All clause lists.", "anchors": ["rnodes.go:Rule.check"]}
{"id": "C37", "title": "Recipient rules at DATA and message time range over all accepted recipients", "statement": "At DATA and message time a rule depending on the recipient matches exactly when it matches for at least one accepted recipient, examined in order; with no recipients it does not match.", "quantifier": "every recipient list", "why_tests_cant": "Unbounded recipient lists.", "anchors": ["rules.go:ruleForEachRcpt", "rules.go:Decide"]}
{"id": "C38", "title": "Rules never refuse MAIL FROM:<>; the refusal is deferred to its RCPT TOs", "statement": "For any rules, MAIL FROM:<> is never answered 4xx/5xx because of a rule; if rules reject or stall it, every following RCPT TO up to the next MAIL FROM or HELO gets that same result and the with options computed at MAIL FROM.", "quantifier": "every rule list, every session history", "why_tests_cant": "All rules and histories.", "anchors": ["rules.go:Decide"]}
{"id": "C39", "title": "A deferred refusal never leaks into another transaction", "statement": "After any new MAIL FROM or HELO/EHLO command the earlier deferred result has no influence on decisions.", "quantifier": "every session history", "why_tests_cant": "All histories.", "anchors": ["rules.go:Decide"]}
{"id": "C40", "title": "No rule accepted by the parser can crash the server", "statement": "Evaluating any parsed rule in any phase of any session never panics. (The code violates this: an empty quoted argument, or a host match on an empty HELO name, indexes out of range.)", "quantifier": "every parsed rule, every client input", "why_tests_cant": "All rules and inputs; a panic kills all connections.", "anchors": ["rules.go:getMatchList", "rules.go:matchHost"]}
{"id": "C41", "title": "Every command gets exactly one reply", "statement": "Each MAIL FROM, RCPT TO, DATA and received message handled by the session triggers exactly one reply call, HELO/EHLO at most one (a refusal); the reply class is 2xx exactly if the rules accept or have no opinion (and saving did not fail and the client is not dropped for repeated attempts), 4xx for stall, 5xx for reject.", "quantifier": "every event sequence, rule list and world", "why_tests_cant": "All histories.", "anchors": ["sinksmtp.go:decider", "sinksmtp.go:doAccept", "sinksmtp.go:process"]}
{"id": "C42", "title": "The recorded envelope is the accepted one", "statement": "When a message is received, the sender recorded and logged for it is that of the last accepted MAIL FROM since the last accepted HELO, and the recipients are exactly the RCPT TOs accepted since then, in order; refused addresses never appear, nor do those of earlier transactions.", "quantifier": "every event sequence", "why_tests_cant": "All histories of refused and accepted commands, resets and several messages per connection.", "anchors": ["sinksmtp.go:process"]}
{"id": "C43", "title": "A message is saved before it is answered, and never accepted unsaved", "statement": "With a save directory, a 2xx reply to a message implies a file with the message's name exists and its whole record was written (or a file of that name already existed). The code violates this when the write fails but close succeeds: the write error is overwritten.", "quantifier": "every outcome of open/write/sync/close, every history", "why_tests_cant": "All fault combinations and histories.", "anchors": ["sinksmtp.go:handleMessage", "sinksmtp.go:process"]}
{"id": "C44", "title": "An existing save file is never overwritten", "statement": "Saving never changes the contents of a file that already exists, under any interleaving of concurrent sessions and at any crash point; a file's contents are always a prefix of the record of the message that created it.", "quantifier": "every interleaving, crash point and fault", "why_tests_cant": "All schedules and crash points.", "anchors": ["sinksmtp.go:handleMessage"]}
{"id": "C45", "title": "Saved records can be split back", "statement": "In every save file the message is exactly what follows the first line consisting of 'body', and sender, recipients and message can be recovered unambiguously, for addresses and names without newline.", "quantifier": "every transaction", "why_tests_cant": "All message contents, including ones imitating metadata.", "anchors": ["sinksmtp.go:msgDetails"]}
{"id": "C46", "title": "Save names depend on exactly the documented information", "statement": "'msg' names depend only on the message, 'full' names on everything except the id line (connection id, client port, time), 'all' names on everything.", "quantifier": "every pair of transactions", "why_tests_cant": "Relational property over all pairs.", "anchors": ["sinksmtp.go:handleMessage", "sinksmtp.go:msgDetails"]}
{"id": "C47", "title": "Save directory is sticky", "statement": "A message goes to the directory given by the last nonempty savedir option computed by any earlier command of the connection, else to -d; a savedir set at message time affects only later messages.", "quantifier": "every history", "why_tests_cant": "All histories.", "anchors": ["sinksmtp.go:decider", "sinksmtp.go:process"]}
{"id": "C48", "title": "With -M no message is ever accepted", "statement": "With -M every received message is answered 4xx or 5xx whatever rule files say, after being logged and saved.", "quantifier": "every rule file, world and history", "why_tests_cant": "All rules.", "anchors": ["sinksmtp.go:buildRules", "sinksmtp.go:process"]}
{"id": "C49", "title": "Do-nothing clients are stalled after dncount sessions within the window", "statement": "The count kept for an address is the number of do-nothing sessions since the last gap of at least dndur, success or expiry; a client is stalled exactly when that count is at least dncount and the last event is younger than dndur.", "quantifier": "every history of sessions and times", "why_tests_cant": "All time histories and interleavings.", "anchors": ["sinksmtp.go:ipMap.Add", "sinksmtp.go:ipMap.Lookup", "sinksmtp.go:ipMap.Set", "sinksmtp.go:ipMap.Del", "sinksmtp.go:process"]}
{"id": "C50", "title": "Blacklist bookkeeping is consistent under any interleaving", "statement": "At any time the table size equals additions of new entries minus deletions minus expired lookups; counters never go backwards; an empty address is never stored.", "quantifier": "every sequence of operations of any number of connections", "why_tests_cant": "All interleavings.", "anchors": ["sinksmtp.go:ipMap.Stats"]}
{"id": "C51", "title": "Becoming a do-nothing client is reported exactly once", "statement": "Over any interleaving of sessions of one address with no success, expiry or forced entry in between, exactly one session reports the address as added, namely the one bringing the count to dncount. The code violates this for sessions with a second MAIL FROM: what is counted there can pass dncount without a report, and then no session ever reports it.", "quantifier": "every interleaving", "why_tests_cant": "All interleavings.", "anchors": ["sinksmtp.go:process"]}
{"id": "C52", "title": "make-yakker makes the client a do-nothing client whatever happens later in the session", "statement": "The documentation says a matching rule with make-yakker marks the client regardless of additional progress. The code honours only the options of the last decision of the session.", "quantifier": "every session history", "why_tests_cant": "All histories.", "anchors": ["sinksmtp.go:process", "doc.go"]}
{"id": "C53", "title": "minphase: progress clears and protects", "statement": "A session counts as do-nothing exactly when it did not reach the configured minimum phase, had good rules, had no TLS error and was not already stalled; a session that reached it removes the client's entry.", "quantifier": "every history and setting", "why_tests_cant": "All histories.", "anchors": ["sinksmtp.go:process"]}
{"id": "C54", "title": "TLS is withheld after two recent TLS failures", "statement": "TLS is offered exactly when certificates are configured and the client has fewer than two TLS errors recorded with the last younger than 72 hours (and no tls-opt off matched at connect); a client certificate is requested exactly when no failure is recorded.", "quantifier": "every history of TLS failures and times", "why_tests_cant": "All time histories.", "anchors": ["sinksmtp.go:process", "sinksmtp.go:notls"]}
{"id": "C55", "title": "Repeated warnings are printed once", "statement": "The warnings printed are exactly the submitted ones with consecutive repetitions (and empty ones) removed, in order, for any number of concurrent submitters.", "quantifier": "every sequence of warnings", "why_tests_cant": "All interleavings.", "anchors": ["sinksmtp.go:warnbackend", "sinksmtp.go:warnonce"]}
{"id": "C56", "title": "Connection parameters come from the first matching line", "statement": "The host name and certificates of a connection are those of the first line of the conncfg file whose LOCAL is '*', the local address:port, the local IP, or a CIDR containing it; a matching line without certificates disables TLS; errors fall back to the command line.", "quantifier": "every file and local address", "why_tests_cant": "All files.", "anchors": ["conncfg.go:readConnFile", "conncfg.go:find", "sinksmtp.go:process"]}
{"id": "C57", "title": "A rejected connection is dropped before any command", "statement": "A reject result at connect drops the connection with no further processing; stall or accept at connect lets it go on.", "quantifier": "every rule list and client", "why_tests_cant": "All rules.", "anchors": ["sinksmtp.go:process", "sinksmtp.go:decider"]}
{"id": "C58", "title": "Startup checks guarantee runtime assumptions", "statement": "Whenever startup succeeds: there is a save directory, -M or -force-receive; the hash type is one of the three handled; the minimum phase is one of the six; dncount>0 implies an SMTP log; certificate and key come together. Hence the 'unhandled hashtype' panic is unreachable.", "quantifier": "all option combinations", "why_tests_cant": "All option strings.", "anchors": ["sinksmtp.go:main", "sinksmtp.go:handleMessage"]}
{"id": "C59", "title": "Rules of one connection are not affected by another connection", "statement": "The rules in force for a connection stay those computed at its start. The code violates this: appending to the shared base rule slice writes into shared spare capacity.", "quantifier": "every interleaving of connections and rule file changes", "why_tests_cant": "All interleavings; needs aliasing.", "anchors": ["sinksmtp.go:accumRules", "sinksmtp.go:setupRules"]}
{"id": "C60", "title": "Logging options never crash the server", "statement": "A rule note is written to the SMTP log if there is one and ignored otherwise. The code violates this: a note without -smtplog dereferences a nil logger.", "quantifier": "every rule and configuration", "why_tests_cant": "All configurations and rules.", "anchors": ["sinksmtp.go:decider", "sinksmtp.go:smtpLogger.Write"]}
{"id": "C61", "title": "SBL record logging never crashes the server", "statement": "Logging SBL records is safe for every client. The code violates this for a 'dbl' rule using sbl.spamhaus.org and a non-IPv4 client.", "quantifier": "every rule and client", "why_tests_cant": "All rules and clients.", "anchors": ["sinksmtp.go:getSBLHits", "sinksmtp.go:logDnsbls"]}
{"id": "C62", "title": "No lexer goroutine is left behind", "statement": "Under every schedule of the lexer and parser goroutines, Parse neither deadlocks nor leaks: when Parse returns, the lexer has sent or discarded all its items and has terminated, and the parser has seen the items in order.", "quantifier": "every schedule, every input", "why_tests_cant": "All schedules.", "anchors": ["rparse.go:Parse", "rlex.go:drain", "rlex.go:run", "rlex.go:nextItem"]}
{"id": "C63", "title": "Connection ids are unique", "statement": "Two connections accepted by one server process never share a log/save id, for any number of listeners and any arrival order.", "quantifier": "every arrival history", "why_tests_cant": "All interleavings of listeners.", "anchors": ["sinksmtp.go:main", "sinksmtp.go:listener"]}
{"id": "C64", "title": "Message log is one line per message", "statement": "Each received message adds exactly one line to the message log, containing the accepted sender and recipients, for addresses without newline.", "quantifier": "every message", "why_tests_cant": "All contents.", "anchors": ["sinksmtp.go:logMessage"]}
{"id": "C65", "title": "Blocklist hit counters add up", "statement": "After any sequence of reports each counter equals the number of times its name was reported.", "quantifier": "every sequence of reports, any interleaving", "why_tests_cant": "All sequences.", "anchors": ["sinksmtp.go:dnsblCounts.Add"]}
{"id": "C66", "title": "Statistics count what happened", "statement": "The statistics page counts of EHLO, MAIL FROM, RCPT TO and DATA commands, of accepted ones, of messages and of TLS failures equal, for each session, the numbers of such events that happened; each event is counted once. The counter shown as accepted messages also counts messages that were refused after they were received.", "quantifier": "every session and every sequence of client events", "why_tests_cant": "All event sequences and rule results.", "anchors": ["sinksmtp.go:process", "sinksmtp.go:decider", "sinksmtp.go:setupExpvars"]}
{"id": "C67", "title": "An accepted message is completely on disk", "statement": "When a save directory is in force, a message answered with success is on disk in full, also if it is sent again after saving it failed. The code violates this: a file left by a failed save makes the next attempt succeed without writing anything. Without failing writes, once all sessions have done their work, every file created or found holds a whole record.", "quantifier": "every interleaving of sessions, every failing write", "why_tests_cant": "Faults and interleavings are sampled by tests.", "anchors": ["sinksmtp.go:handleMessage", "sinksmtp.go:process"]}
{"id": "C68", "title": "A mail domain has one verdict per connection", "statement": "During a connection the mail servers of a domain are looked up at most once; whether the sender's or a recipient's domain counts as valid, invalid or temporarily failing, once asked by a rule, stays the same for that connection whatever the DNS does later, and asking again causes no lookup.", "quantifier": "every DNS, changing at any time, every sequence of decisions", "why_tests_cant": "A test DNS gives fixed answers.", "anchors": ["rules.go:Context.validDomain", "rules.go:Context.getAddrOpts"]}
{"id": "C69", "title": "Reply texts", "statement": "The text of a reply is the one of the rule that decided (its with message option), otherwise a default that depends only on the command and on whether one or several recipients have been accepted; after the message its id, the name under which it was saved or its hash, is added. A rule's message never turns a success into a failure or the reverse.", "quantifier": "every session, every rule result and every message option", "why_tests_cant": "All rules, commands and numbers of recipients.", "anchors": ["sinksmtp.go:process", "sinksmtp.go:decider", "sinksmtp.go:doAccept", "sinksmtp.go:pluralRecips"]}
{"id": "C70", "title": "Blocklist hits are told once", "statement": "When the rules find the client on DNS blocklists, the SMTP log gets one line with all of these lists, sorted, and each of them is counted, unless the line logged last in this session is the same; only if sbl.spamhaus.org is among them is its TXT record asked and are the SBL records logged and counted. Whenever the rules were asked and lists were hit, the last such line in the log is up to date. Nothing else is said or counted about blocklists.", "quantifier": "every session, every rule set, every DNS behaviour", "why_tests_cant": "All sequences of decisions with changing hits.", "anchors": ["sinksmtp.go:logDnsbls", "sinksmtp.go:getSBLHits", "sinksmtp.go:decider"]}
{"id": "C71", "title": "The SMTP log can be taken apart by session", "statement": "All sessions write to one SMTP log at the same time. Each entry is written to the file at once, whatever its length, with the session's id in front; the lines with a session's id, read in order, are its entries in the order they were logged. After a write to the log has failed, the session's log ends with the first part of that entry and nothing is logged for that session any more, even if later writes would work.", "quantifier": "every number of sessions, every interleaving, every failing write, entries of every length", "why_tests_cant": "Interleavings and write failures are sampled by tests.", "anchors": ["sinksmtp.go:smtpLogger.Write", "sinksmtp.go:process"]}
{"id": "C72", "title": "The statistics page is consistent", "statement": "At every moment, whatever sessions run: no more commands are counted as accepted than arrived, no more sessions as ended than connections, no more as abandoned or refused than ended; the page, though read while sessions go on, never shows more accepted commands of a kind than commands. When nothing goes on, the numbers on the page are the numbers of such events in all sessions, and starttls is tls_errors plus ehlo_tlson. A session the client ends is counted as refused if the last decision of its rules was a refusal, else as abandoned (also if it delivered a message), provided its rules are good and it counts. The page as a whole is not a snapshot: it can show more ends of sessions than connections.", "quantifier": "every number of sessions, every interleaving, every moment at which the page is read", "why_tests_cant": "Interleavings with the page's reader are sampled by tests.", "anchors": ["sinksmtp.go:setupExpvars", "sinksmtp.go:process", "sinksmtp.go:main"]}
{"id": "C73", "title": "The times on the statistics page", "statement": "Under last the statistics page shows times of the latest connection, ordinary or yakker session, message and reached minimum phase, and with -statsperip it shows the same under lasts_to for each local address. Each time shown is a moment within an actual occurrence of that event (to that address). Once an event has been noted, the page shows it from then on, with a time of this event or of one whose noting had not ended when this one began: no event and no address is lost, however sessions overlap. If nothing else of that kind happens at the same time or later, exactly its own time is shown. A session notes: its kind, one message per message sent, and the minimum phase at its end if it got that far. The shown time can go backwards when two sessions overlap.", "quantifier": "For every number of sessions, every way in which their operations interleave, every clock and every set of addresses.", "why_tests_cant": "The updates are read-test-create-write sequences without a lock over nested maps; losses would only show up in particular interleavings.", "anchors": ["sinksmtp.go:updateOneTime", "sinksmtp.go:updateTimeOf", "sinksmtp.go:main", "sinksmtp.go:process"]}
{"id": "C74", "title": "Why a mail domain is bad is logged", "statement": "When a rule looks at the domain of an address and it is bad or cannot be looked up, the decision notes a reason: the domain and what is wrong with it (a temporary failure of the MX lookup, a null or bogus MX, a failed address lookup, no address, an address that is not global or is private). What is noted is true of the DNS answers received, every decision that looks up a bad domain notes one, and with an SMTP log whatever was noted is logged as '! domain D: reason', once as long as it stays the same.", "quantifier": "every session, every rule set, every DNS behaviour, changing over time", "why_tests_cant": "All DNS answers and all sequences of decisions.", "anchors": ["rules.go:getAddrOpts", "rules.go:Decide", "mxresolve.go:ValidDomain", "mxresolve.go:checkIP", "sinksmtp.go:decider"]}
{"id": "C75", "title": "The record of a message, and what is said about the client's certificate", "statement": "The saved file of a message is, byte for byte: an id line with session, remote address and time; the remote and local address with the last accepted HELO name; a line for each nonempty kind of names found in DNS for the client (verified, not resolving back, inconsistent); if TLS was on when the message came, a line with the cipher suite (number and name), protocol version, server name asked for, name of the client's certificate and whether it is verified; sender, recipients, the hashes and size; then the message. The certificate is the one shown with this message, or with the latest message in the session that came with one, and it is called verified exactly if the library verified it or verification with the configured authorities then succeeded. When an accepted HELO or EHLO first finds TLS on, this is counted and, if a certificate was shown and there is an SMTP log, a line says once whether it verifies or why not.", "quantifier": "every session, every TLS state, every outcome of certificate verification, every DNS behaviour", "why_tests_cant": "All combinations of TLS states, certificates and earlier messages.", "anchors": ["sinksmtp.go:msgDetails", "sinksmtp.go:writeDNSList", "sinksmtp.go:process", "sinksmtp.go:tlsClientLog", "sinksmtp.go:tlsTryVerify", "sinksmtp.go:tlsName", "tlsnames.go:cipherNames"]}
{"id": "C76", "title": "The text of a rules file means what the documentation says", "statement": "From the words of a rules file (without include lines) alone one can say what each command gets. Each condition has the documented meaning: addresses, host names and IP addresses against patterns or the entries of pattern files; the words of from-has, to-has, helo-has and dns; dnsbl and dbl with the names their words stand for (helo and ehlo the greeting, host the names found for the client, from the sender's domain, any all of them); not, or, juxtaposition and parentheses. Each rule is looked at in the phase it names, or else from the phase on in which everything it uses is known. Going through the rules in the order of the file, the first used one with an action decides, and each option has the last value given to it by the clauses used.", "quantifier": "every rules text built from words, quoted strings, commas, parentheses and semicolons with any layout; every session without MAIL FROM:<>, every DNS behaviour, pattern files that are not empty", "why_tests_cant": "All rule texts and all sessions.", "anchors": ["rparse.go:Parse", "rlex.go:lex", "rnodes.go", "rules.go:Decide", "doc.go"]}
{"id": "C77", "title": "Replies follow from the options and the texts of the rule files", "statement": "The rules in force on a connection are those the documentation gives for the command line options, then those of the -r files in their order, each include line replaced by what the included file says. Every command is answered as this text says, read with the documented meaning of every word: the reply is 2xx, 4xx or 5xx as the first rule used that has an action accepts (or there is none), stalls or rejects. MAIL FROM:<> is never refused; its refusal is given to the commands after it until the next HELO or MAIL FROM. The connection is refused exactly if the text says reject at connect. With files and DNS that do not change, the answer is determined by the options, the texts, the pattern files, the DNS and the commands so far.", "quantifier": "every option, every set of rule files with any includes, every session that is not one of a do-nothing client being stalled, pattern files that are not empty", "why_tests_cant": "All texts, all sessions.", "anchors": ["sinksmtp.go:buildRules", "sinksmtp.go:setupRules", "sinksmtp.go:accumRules", "rparse.go:Parse", "rules.go:Decide", "sinksmtp.go:decider", "sinksmtp.go:process", "doc.go"]}
{"id": "C78", "title": "The error messages for rule files are true", "statement": "When a rules text is refused, all lines before the one complained of are complete and right, and the message is right about the word at the line and character it names: 'expected argument' only where a word that takes an argument is not followed by one, 'expecting closing )' only where a parenthesis was opened and what follows can neither go on with the expression nor close it, 'repeated x option' only if x was given before in the same with clause, the phase complaint only if the phase is really too low, and so on for all messages; 'unterminated quoted value', 'comma followed by whitespace' and 'file: with no filename' only where the text has such a thing. 'while including f: ...' is given only when loading f fails, and what follows is why: it cannot be opened or read, or a complaint about its text that is true in the same way.", "quantifier": "every rules text, all contents of included files to any depth", "why_tests_cant": "All wrong texts.", "anchors": ["rparse.go:Parse", "rparse.go:genError", "rlex.go:errorf", "sinksmtp.go:loadRules"]}
{"id": "C79", "title": "If the server does not start, it says truthfully why", "statement": "With addresses to listen on, the server either runs or ends with a message that is true of the options and the machine and is a real obstacle: a missing or contradictory option named in the message, certificates that cannot be loaded (numbers of certificates and keys differ, or the first pair that fails and why), a log file, save directory or rules file that cannot be opened, the first wrong line of the -conncfg file with its number and what is wrong there (too many fields, a field without =, an unknown key, a certificate without key or the reverse, certificates that do not load), rules made from options that do not parse, an address that cannot be listened on. If rule files have problems, the warning names the first that cannot be loaded and why. The same holds for the file's errors when it is read again for a connection.", "quantifier": "every command line, every state of the machine, every -conncfg and rules file", "why_tests_cant": "All combinations of options and failures.", "anchors": ["sinksmtp.go:main", "sinksmtp.go:setupRules", "sinksmtp.go:buildRules", "conncfg.go:readConnFile", "sinksmtp.go:loadCerts"]}
{"id": "C80", "title": "Warnings about a connection are true and complete", "statement": "What the server writes to standard error about a connection is: a warning about the first rules file that cannot be loaded, exactly if there is one, with the true reason; a warning about the -conncfg file exactly if it is asked for and cannot be used, with the reason or its first wrong line; and for every message a warning, with the system's error, for each failure to create, write or close its file, right after it. Nothing else is written.", "quantifier": "every session, every state of the rule files, the -conncfg file and the save directory, at any time", "why_tests_cant": "All sequences of commands and failures.", "anchors": ["sinksmtp.go:setupRules", "sinksmtp.go:process", "sinksmtp.go:handleMessage", "sinksmtp.go:warnf", "conncfg.go:loadConnFile"]}
