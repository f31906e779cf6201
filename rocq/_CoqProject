-Q theories Verif
theories/Base.v
theories/HMap.v
theories/Num.v
theories/Utf8.v
theories/Io.v
theories/IoProofs.v
theories/WsModel.v
theories/WsSpec.v
theories/WsBridge.v
theories/WsProofs.v
theories/WsProofs2.v
theories/WsProofs3.v
theories/WsLoss.v
theories/WsLemmas.v
theories/PropWs.v
theories/PropWs2.v
theories/WsInterrupt.v
theories/PropWs3.v
theories/PropWs4.v
theories/HttpModel.v
theories/HttpSpec.v
theories/Httparse.v
theories/HttpProofs.v
theories/HttpProofs2.v
theories/HttpProofs3.v
theories/HttpProofs4.v
theories/HttpLemmas.v
theories/HttpLemmas2.v
theories/PropHttp.v
theories/FramingSpec.v
theories/PropHttp2.v
theories/PropHttp3.v
theories/PropBody.v
theories/PropBlank.v
theories/Sha1.v
theories/UpgradeModel.v
theories/UpgradeProofs.v
theories/UpgradeLoss.v
theories/PropUpgrade.v
theories/PropUpgrade2.v
theories/RouterModel.v
theories/RouterProofs.v
theories/PropRouter.v
theories/DomModel.v
theories/HtmlModel.v
theories/DomSpec.v
theories/DomProofs.v
theories/DomProofs2.v
theories/DomProofs3.v
theories/DomProofs4.v
theories/DomKeyed.v
theories/DomLocal.v
theories/GrowProofs.v
theories/PropGrow.v
theories/PropExact.v
theories/DomApply.v
theories/Json.v
theories/ClientModel.v
theories/InnerHtml.v
theories/InnerHtmlProofs.v
theories/ClientSpec.v
theories/BrowserSpec.v
theories/ClientProofs.v
theories/ClientProofs2.v
theories/BrowserProofs.v
theories/IdProofs.v
theories/PropDom.v
theories/PropDom2.v
theories/PropClient.v
theories/ComponentModel.v
theories/JsonSpec.v
theories/JsonProofs.v
theories/ComponentSpec.v
theories/ComponentProofs.v
theories/ComponentProofs2.v
theories/PropComponent.v
theories/PropJson.v
theories/RenderModel.v
theories/RenderSpec.v
theories/PropRender.v
theories/PropRender2.v
theories/ChatModel.v
theories/ChatSpec.v
theories/ChatProofs.v
theories/ChatProofs2.v
theories/ChatProofs3.v
theories/PropChat.v
theories/PropBrowser.v
theories/PropMarkup.v
theories/ListModel.v
theories/PropList.v
theories/SharedModel.v
theories/PropShared.v
theories/ServeModel.v
theories/PropServe.v
theories/Conformance.v
theories/Fair.v
theories/PropLive.v
theories/HandlesModel.v
theories/PropHandles.v
theories/FormSpec.v
theories/PropList2.v
theories/UrlSpec.v
theories/UrlProofs.v
theories/PropUrl.v
theories/PropText.v
theories/UserModel.v
theories/UserProofs.v
theories/UserSpec.v
theories/UserProofs2.v
theories/UserProofs3.v
theories/PropUser.v
theories/DeskSpec.v
theories/DeskProofs.v
theories/DeskProofs2.v
theories/DeskProofs3.v
theories/DeskProofs4.v
theories/PropDesk.v
theories/RoomSpec.v
theories/RoomProofs.v
theories/RoomProofs2.v
theories/RoomProofs3.v
theories/PropRoom.v
theories/StaleSpec.v
theories/PropStale.v
theories/PropAuthor.v
theories/PropSize.v
theories/LeaveModel.v
theories/PropLeave.v
theories/SendModel.v
theories/PropSend.v
theories/ExactSpec.v
theories/ExactRun.v
theories/ExactSkel.v
theories/ExactMark.v
theories/ExactStuck.v
theories/PropLevel.v
theories/CarrySpec.v
theories/CarryProofs.v
theories/CarryRun.v
theories/CarryMain.v
theories/PropCarry.v
theories/SessionProofs.v
theories/PropSession.v
theories/PropEncoder.v
theories/PropSize2.v
theories/PropHandshake.v
theories/PropCrowd.v
theories/AnswerSpec.v
theories/PropAnswer.v
theories/PropAsked.v
theories/ListRace.v
theories/PropListRace.v
theories/PropListLive.v
theories/LeaveSpec.v
theories/PropLeave2.v
theories/MimeChars.v
theories/PropMime.v
theories/PropWs5.v
theories/PropReach.v
theories/PropOrder.v
