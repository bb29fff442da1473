# Formal model of sinksmtp in Rocq (Coq 8.16.1)

## Approach

The code is sequential logic (lexer, parser, rule evaluation, per-connection event loop)
plus a little shared state (IP blacklists, counters, warning channel, save directory, the
base rule slice, the channel between lexer and parser).  Each Go function becomes a total
Gallina function that returns the new state; panics are an explicit outcome (`Panic`),
errors are values, external calls (DNS, file system, clock, SHA1, mail parsing, the smtpd
library) are fields of an environment ("world") record which is universally quantified in
every theorem.  Because the world may change between calls, DNS and file oracles take the
index of the external call as an argument.  The decision theorems are stated for the view
(`Saw` in Decisions.v) that the connection got of files and DNS; it exists for every
connection in which no blocklist name gets listed after a failed lookup of it.
Loops without a structural measure run on fuel, with `NoFuel` as an outcome of its own;
the theorems about parsing, matching and sessions exclude it (C01, and every statement of
the form `= Ok ...`).  Goroutines become small-step relations over explicit steps, and
theorems about them hold for every interleaving.

Byte strings are `list ascii` (`bytes`).  Lengths and positions are `nat`; option bitmaps
are `N`; times and counts that the code compares are `Z`.

Properties are stated against separate specifications, not against the model's helpers:
`LexSpec`/`Layout` (which texts are which tokens), `Grammar` (an inductive grammar),
`Sem` (truth values of rules without caches, fuel or state), relations in `PropsMatch`,
`PropsAttr`, `PropsDns` (what patterns, attributes and DNS verdicts mean), `Decisions`
(what a decision has to be, from the commands so far), `Conv` (what a session has to do in
a turn), a reader of saved records in `Records`, an abstract disk in `Disk`, histories of
blacklist operations in `PropsShared`.

### Files (rocq/theories)

Model (definitions carry the file and lines of /repo they model):

| file | models |
|---|---|
| Bytes.v, Outcome.v | byte strings, the Go `strings`/`bufio` functions used, association maps; panics |
| GoNet.v | net.ParseIP, ParseCIDR, IP.Equal, IPNet.Contains, IsGlobalUnicast, SplitHostPort |
| Lexer.v | rlex.go |
| Ast.v | rnodes.go: types and String methods |
| Parser.v | rparse.go, sinksmtp.go:135-151 (loadRules, for include) |
| World.v, Dns.v | DNS and files as oracles; mxresolve.go, rdns.go |
| Eval.v | rules.go, the Eval methods of rnodes.go, sinksmtp.go:88-131 |
| RuleLoad.v | sinksmtp.go:135-189, 1301-1364 (rule files, options that become rules) |
| ConnCfg.v | conncfg.go, sinksmtp.go:1248-1270 |
| CipherNames.v | tlsnames.go (generated by tools/gen_ciphers.py) |
| Message.v | sinksmtp.go:395-495, 550-622, 649-658 |
| Session.v | sinksmtp.go:497-544, 624-1235 (decider, handleMessage, process) |
| Shared.v | sinksmtp.go:57-82, 191-356 (blacklists, hit counters, warnings) |
| Startup.v | sinksmtp.go:1271-1299, 1527-1703 (main up to serving) |
| Accept.v | sinksmtp.go:1239-1246, 1696-1718 (listeners, main loop) |
| Alias.v | Go slices and sinksmtp.go:153-189 as steps of concurrent connections |
| Chan.v | the lexer goroutine, its channel, the parser and drain as concurrent processes |
| Disk.v | the save directory under concurrent sessions and crashes |
| Server.v | several sessions sharing the blacklists |

Specifications and proofs:

| file | contents |
|---|---|
| LexSpec.v, LexProofs.v, Layout.v, PropsLex.v | tokens, layout; C02-C05 |
| Grammar.v, ParseProofs.v, ParseComplete.v, GramStrip.v, GramFacts.v, PropsParse.v | grammar; C01, C06, C07, C09-C11, C15 |
| RoundTrip.v | C08 |
| PropsMatch.v, PropsAttr.v, PropsDns.v | C16-C25, C30, C31 |
| Sem.v, EvalProofs.v, DecideProofs.v, Decisions.v, PropsEval.v, PropsDecide.v, PropsSafe.v | C26-C29, C32-C40, C68 |
| Meaning.v | C76 |
| InForce.v | C77 |
| Errors.v | C78 |
| StartErrors.v | C79 |
| Warnings.v | C80 |
| PropsShared.v | C50, C55, C65 and the lemmas for C49, C51 |
| PropsLoad.v, PropsConn.v, PropsStart.v | C12-C14, C56, C58 |
| SessProofs.v, Conv.v, PropsSession.v, PropsSession2.v, PropsYak.v, PropsReply.v, PropsHits.v, Failures.v, Recorded.v, DemoSession.v | C41-C43, C47-C49, C52-C54, C57, C69, C70, C74, C75 |
| Tallies.v, Server.v, Records.v, Names.v, Disk.v, Crash.v | C66, C49/C51/C54, C45/C64, C46, C44/C67, C60/C61 |
| Accept.v, Alias.v, Chan.v, Smtplog.v, StatsPage.v, LastTimes.v | C63, C59, C62, C71, C72, C73 |

Beside the theorems stand `Example`s in which a concrete case meets the hypotheses.

## Plan per property

* C01 fuelled parser/lexer, theorem: result is never `Panic` nor out of fuel, any input.
* C02 invariant over lexer states by induction on fuel; equivalence with `LexSpec`.
* C03 induction on the quoted string.
* C04 LexSpec equalities under insertion of layout.
* C05 LexSpec + parser error theorem.
* C06 inductive grammar, soundness and completeness of the parser on token lists.
* C07 corollary of C06 (determinism) and explicit shapes.
* C08 printing lemmas over lexer + completeness; exact condition for one argument;
  refutation witnesses for arguments and values that String() does not quote.
* C09, C10 invariants of parser results by induction.
* C11 include as recursion over the number of free file descriptors (each nested include
  holds an open file), splice theorem, self-include theorem.
* C12, C13, C14 theorems about setupRules / sessions under `stall all` / buildRules.
* C15 lineInfo characterised; the positions in error values.
* C16-C20 iff-characterisations against declarative relations.
* C21-C24 iff per attribute, from the word in the rule file; C22 and C17 also `_refuted`
  for the documentation's wording.
* C25 readList vs a declarative line splitting; unterminated last line refutation.
* C26, C32-C37 pure semantics `Sem`; evaluator agrees with it in every cache state
  consistent with the world.
* C27, C68 trace of external calls: at most one read per file, one MX lookup per domain; snapshot theorem.
* C28-C31 DNS functions vs specs, permutation invariance.
* C38, C39 over Decide call histories.
* C40 `_refuted` with witnesses, and safety theorem under the exact guards.
* C41-C48, C52, C53, C54, C57, C60, C61 over the process loop, all event lists.
* C69 reply wording as a relation on decision and recipients; C70 log effects of each decision
  against a relation on its hits and the line logged before.
* C71 sessions as processes over one log file, bufio.Writer as a program of raw writes; invariant.
* C72 additions of all sessions interleaved in every way; the page as reads at moments that only
  grow; `_refuted`: the page is no snapshot.
* C73 updateTimeOf as steps (time.Now, Map.Get, String.Set, Map.Set) of the main loop and any number of
  sessions over one store; invariant: a call that returned is visible with a time no older than what
  overlapped it. It rests on the main loop having made the map of an address before its session starts.
* C74 the reasons as an inductive specification over DNS answers; invariants of the evaluator (a domain newly
  found bad leaves a note) and of the session (what was noted has been logged)
* C75 the record written out line by line over the session's history; invariant: the certificate on record is
  the latest one shown with a message; the HELO handler's effects after `ehloAccept` computed exactly
* C76 the meaning of a rules text by inductive relations over its words (conditions as predicates on the situation,
  options as pairs); the parser's trees are shown to agree with it through the grammar (C06), decisions through C33's
  run relation
* C77 the meaning of files with include lines by mutual induction; options as documented lines; the run relation with
  postponed refusals, restated over meanings, along the decisions of a session; replies through C41
* C78 a table of the messages with what must hold of the words before and at the position; the parser's functions are
  gone through a second time for their errors, using what C06's proof says about what they read without error
* C79 a table of the reasons not to start, each with its message; every check of main gone through for its message, and
  each reason contradicts C58's condition for starting
* C80 the warnings and file operations of a session form a sequence of three parts, by going through process
* C43 `_refuted` (lost write error) and the theorem under "write did not fail".
* C44, C67 small-step concurrent savers with crash = any prefix.
* C45, C46, C64 string-level theorems about msgDetails / logMessage.
* C49-C51 ipMap vs history specification; sessions interleaved.
* C55 warnbackend vs dedup; C56 readConnFile/find; C58 main up to serving.
* C59 heap model of slices, `_refuted`; and the theorem when capacity is exhausted.
* C62 two-process channel machine; C63 main loop; C65, C66 counters.
## Trusted base

* Coq 8.16.1's kernel (with `vm_compute`, used for closed computations such as witnesses
  and finite tables) and its standard library.  No other library is used.
* `Print Assumptions` says "Closed under the global context" for every theorem named in
  MANIFEST.json (rocq/theories/Assumptions.v prints it for each of them): no axiom, of the
  standard library or otherwise, is used.  vcheck's list of library axioms names
  parameters of module types in Coq.ssr (`Under_rel`), which are loaded but not used.
* No `Admitted`, no `Axiom`, no `Variable`/`Hypothesis` outside sections, no functors.
* That the model is the code.  /repo was read, not run.  Every definition cites lines.
* That the specifications say what the English properties say.
* The behaviour assumed of what is not in /repo:
  - Go's language semantics (slices, maps, integer conversion) as rendered here;
  - package `net`'s text functions as in GoNet.v (Go 1.17 or later);
  - strings.ToLower, TrimSpace and Fields are byte-wise on ASCII strings; on other strings
    they are arbitrary functions, of which some theorems assume the four facts in
    `unicode_ok` (Bytes.v);
  - smtpd delivers any sequence of events; it sends one reply per call of its reply
    methods and by itself only where the code gives none (documented there);
  - SHA-1 and net/mail are arbitrary functions; statements about names are about the
    hashed texts;
  - os.OpenFile with O_CREATE|O_EXCL creates a file or reports that it exists,
    atomically; nothing else changes the save directory (Disk.v);
  - sync.Mutex makes the operations on shared maps atomic; channels without a buffer pass
    values synchronously;
  - expvar.Int.Add, String.Set, Map.Get and Map.Set are atomic; expvar.Map shows its variables in the order of their names,
    reading each when its turn comes (StatsPage.v).

## Not modelled

The smtpd package (an environment, see above), crypto/tls and x509, SHA-1, net/mail,
rendering of the statistics page as JSON, -pprof,
usage(), the Go scheduler beyond interleavings of the steps named, memory, time as such
(clock readings are arbitrary values), errors when writing logs other than the SMTP log, the texts of most
operating system errors.  item.String and dnsResult.String (debugging) are not modelled.

## Simplifications

* sort.Strings in logDnsbls sorts the context's list in place; the model sorts a copy, as
  the order of that list shows nowhere else.
* Counts in log lines are printed through `Z.to_nat` (they are positive there).
* Connection numbers are `nat` in sessions; C63 has Go's wrap-around.
* A panicking session's effects are visible only up to its last completed turn and a
  message saved before the panic (`Sofar` in Disk.v).
* Alias.v: one append is one step.  Chan.v: a state function that goes on after a send is
  taken to have done so already; it looks at nothing the parser could change.
* Failing log writes, and warnf's writes to standard error, have no result.
* os.Create of the test file in the save directory at startup is only its error (see the
  findings for what it does to a file of that name).

## Findings

Where the code does not do what its documentation or a reasonable reading promises; each
is a theorem with a witness unless marked (read).

| property | finding |
|---|---|
| C08 | `String()` prints arguments without quotes: an argument with a space prints as text that does not parse or is another rule (`from "a or all"`); with-values with quotes or doubled backslashes, and empty values, do not survive |
| C14 | a file name with spaces in -fromreject etc. becomes different rules |
| C17 | documentation: no pattern matches an address starting or ending with @; the equal pattern does |
| C20, C56 | an address with a zone (fe80::1%eth0) never equals an address in a rule or a conncfg line |
| C22 | `bad` includes route and not quoted, the documentation says the opposite |
| C25, C56 | the last line of a pattern or conncfg file is dropped silently if it has no newline |
| C27 | a blocklist lookup that failed is repeated: `not dnsbl D dnsbl D` is true when the DNS recovers in between |
| C30 | a domain whose MX lookup succeeds with no entries gets no verdict at all (dnsUndef) |
| C40 | `from ""` parses and panics when evaluated; a HELO without name panics host matches in `helo`; an empty name in reverse DNS panics `dbl host` and the choice of the local name |
| C43 | the error of Write is overwritten by that of Close, and that of Sync ignored: a message not written completely is accepted |
| C45 | a client certificate whose name has newlines forges lines of the saved record |
| C46 | the `full` name depends on the port if the remote address cannot be split (read) |
| C51 | attempts counted at repeated MAIL FROMs can bring the count to -dncount unreported; then it is never reported |
| C52 | make-yakker counts only if it is among the options of the session's last decision, and only if the session ends normally |
| C53 | a message that could not be saved counts as progress |
| C59 | append(baserules, ...) writes into shared spare capacity: with the three standard rules (capacity 4) a connection can run with the rules another one loaded |
| C60 | a rule with `note` and no -smtplog crashes the server |
| C61 | `dbl ... sbl.spamhaus.org` crashes the server for a client without dotted address |
| C66 | the statistic "accepted messages" counts refused ones too |
| C67 | a file left by a failed save makes the next attempt succeed without writing |
| C71 | after one failed write to the SMTP log nothing more is logged for that session, although the server goes on |
| C72 | `abandons` also counts sessions that delivered messages; the page can show more QUITs than connections |
| C73 | a time under `last` can go backwards: the time is taken before it is stored; `iptimes` is used without `Init`, which needs Go 1.9 or later (read, not modelled) |
| C38, C41 | a client counted too often gets 4xx to MAIL FROM whatever the rules say, also to MAIL FROM:<> |
| C11 | a file that includes itself is stopped only by running out of file descriptors |
| C47 | a savedir option at @message applies to later messages only, and stays |
| C23 | an empty remote address (Unix socket) makes every HELO name without address `remip` |
| (read) | the HELO attribute is `remip`; the documentation calls it `remoteip`.  The documentation's example `to joe@example.com or jim@example.org` does not parse.  Startup truncates and removes an existing file `.wecanmake` in the save directory |

## Testing the theorems against wrong programs

tools/mutate.py edits one definition of the model in a scratch copy, compiles everything
that depends on it, replaces proofs that break by `Admitted` there and goes on, and lists
the theorems of the manifest that are hit.  seeded/LOG.jsonl has one line per edit; the
edits are in seeded/*.json.
