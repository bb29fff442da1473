-Q theories Verif
theories/Bytes.v
theories/Outcome.v
theories/Lexer.v
theories/LexSpec.v
theories/LexProofs.v
theories/Ast.v
theories/GoNet.v
theories/Parser.v
theories/Grammar.v
theories/ParseProofs.v
theories/ParseComplete.v
theories/Layout.v
theories/GramStrip.v
theories/GramFacts.v
theories/PropsLex.v
theories/PropsParse.v
theories/World.v
theories/Dns.v
theories/Eval.v
theories/PropsMatch.v
theories/PropsAttr.v
theories/PropsDns.v
theories/Sem.v
theories/EvalProofs.v
theories/DecideProofs.v
theories/Decisions.v
theories/PropsEval.v
theories/PropsDecide.v
theories/PropsSafe.v
theories/Shared.v
theories/PropsShared.v
theories/RuleLoad.v
theories/PropsLoad.v
theories/ConnCfg.v
theories/PropsConn.v
theories/CipherNames.v
theories/Message.v
theories/Session.v
theories/SessProofs.v
theories/Conv.v
theories/PropsSession.v
theories/PropsSession2.v
theories/DemoSession.v
theories/PropsYak.v
theories/Tallies.v
theories/Server.v
theories/Records.v
theories/Names.v
theories/Disk.v
theories/Crash.v
theories/Startup.v
theories/PropsStart.v
theories/Accept.v
theories/Alias.v
theories/Chan.v
theories/RoundTrip.v
theories/Assumptions.v
theories/PropsReply.v
theories/PropsHits.v
theories/Smtplog.v
theories/StatsPage.v
theories/LastTimes.v
theories/Failures.v
theories/Recorded.v
theories/Meaning.v
theories/InForce.v
theories/Errors.v
theories/StartErrors.v
theories/Warnings.v
