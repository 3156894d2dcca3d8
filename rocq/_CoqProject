-Q theories Verif
theories/Bytes.v
theories/Nom.v
theories/Ip.v
theories/SmtpString.v
theories/Message.v
theories/Reply.v
theories/Stream.v
theories/RepoTests.v
theories/SpecData.v
theories/DataProofs.v
theories/DataLines.v
theories/SinkProofs.v
theories/StreamProofs.v
theories/PropData.v
theories/SpecIp.v
theories/SpecGrammar.v
theories/NomLemmas.v
theories/GrammarProofs.v
theories/CommandProofs.v
theories/IpProofs.v
theories/IpText.v
theories/RoundTrip.v
theories/PropGrammar.v
theories/Interact.v
theories/RepoSessions.v
theories/SpecReply.v
theories/ReplyProofs.v
theories/PropReply.v
theories/InteractProofs.v
theories/SpecSession.v
theories/HandlerProofs.v
theories/SessionProofs.v
theories/TraceProofs.v
theories/SimProofs.v
theories/SpecExchange.v
theories/ExchangeProofs.v
theories/LawfulProofs.v
theories/PropServer.v
theories/SpecSink.v
theories/PropSink.v
theories/SpecE2E.v
theories/PropE2E.v
theories/Queue.v
theories/SpecQueue.v
theories/QueueProofs.v
theories/QueueLives.v
theories/QueueHour.v
theories/QueueTime.v
theories/QueueLive.v
theories/QueueExec.v
theories/QueueFair.v
theories/PropQueue.v
theories/PropQueueFair.v
theories/SpecQueueEnd.v
theories/PropQueueEnd.v
theories/ByteSlice.v
theories/SpecSlice.v
theories/PropByteSlice.v
theories/SliceParser.v
theories/PropSlice.v
theories/Fuzz.v
theories/FuzzProofs.v
theories/FuzzInteract.v
theories/PropFuzz.v
theories/Write.v
theories/SpecWrite.v
theories/PropWrite.v
theories/SpecRfc.v
theories/PropRfc.v
theories/PropCodes.v
theories/SpecDefault.v
theories/PropDefault.v
theories/SpecPrompt.v
theories/PromptProofs.v
theories/PropPrompt.v
theories/Async.v
theories/SpecAsync.v
theories/AsyncProofs.v
theories/AsyncWaits.v
theories/AsyncFlush.v
theories/PropAsync.v
theories/AsyncReplay.v
theories/AsyncContract.v
theories/PropAsyncSink.v
theories/SpecMemory.v
theories/PropMemory.v
theories/SinkFuture.v
theories/PropSinkFuture.v
theories/PropErrors.v
theories/AsyncUser.v
theories/SpecUser.v
theories/SpecUserWaits.v
theories/AsyncUserWaits.v
theories/AsyncUserProofs.v
theories/AsyncUserFlush.v
theories/PropUser.v
theories/PropUserWaits.v
theories/SpecAddr.v
theories/PropAddr.v
theories/Work.v
theories/SpecWork.v
theories/PropWork.v
theories/TruncProofs.v
theories/AsyncUserIdle.v
theories/PropIdle.v
theories/NomWork.v
theories/NomWorkProofs.v
theories/PropParseWork.v
theories/SpecLiberal.v
theories/LiberalProofs.v
theories/PropLiberal.v
theories/SpecRelay.v
theories/PropRelay.v
theories/SpecAgree.v
theories/PropAgree.v
theories/SpecBound.v
theories/PropBound.v
theories/SpecSettle.v
theories/PropSettle.v
theories/SpecTasks.v
theories/PropTasks.v
theories/SpecFresh.v
theories/PropFresh.v
